(** sq_cost, the integral of a square, and constant controls. *)
From Coq Require Import String.
From Coquelicot Require Import Coquelicot.
From Verif Require Import Prelude PreludeFacts Poly PolyFacts PolyInterp Mat MatFacts
  PwInterpModel PsModel UtilModel BuTdModel UtilSpec GaussFacts CostSpec CostFacts CostModel CostProofs CostEqProofs.
Open Scope R_scope.
Open Scope vec_scope.
Open Scope list_scope.

Lemma same_shape_ok n m A B : shaped n m A -> shaped n m B -> same_shape A B = true.
Proof.
  intros [H1 H2] [H3 H4]. unfold same_shape. rewrite H1, H3, Nat.eqb_refl. cbn [andb].
  apply forallb_forall. intros [r s] H. rewrite Forall_forall in H2, H4.
  apply Nat.eqb_eq. cbn [fst snd]. rewrite (H2 r), (H4 s); [reflexivity| |].
  - apply (in_combine_r _ _ _ _ H).
  - apply (in_combine_l _ _ _ _ H).
Qed.
Lemma shaped_skip1 n m A : shaped (S n) m A -> shaped n m (skipn 1 A).
Proof.
  intros [H1 H2]. split; [rewrite skipn_length; lia|]. destruct A; [constructor|]. now inversion H2.
Qed.
Lemma shaped_butlast1 n m A : shaped (S n) m A -> shaped n m (butlastn 1 A).
Proof.
  intros [H1 H2]. split; [rewrite length_butlast1; lia|].
  unfold butlastn. simpl Nat.eqb. cbn match. rewrite Forall_forall in *. intros r Hr. apply H2.
  rewrite <- (firstn_skipn (length A - 1) A). apply in_or_app. now left.
Qed.

(** C33: one step. *)
Theorem exact_integral a b c h t : h <> 0 ->
  exists p, (length p <= 3)%nat /\ peval p t = a /\ peval p (t + h / 2) = b /\ peval p (t + h) = c /\
    exact_entry h a b c = RInt (fun x => peval p x ^ 2) t (t + h).
Proof.
  intros Hh. destruct (interp_points [t; t + h / 2; t + h] [a; b; c]) as (p & Hl & Hk).
  - repeat constructor; simpl; intros K; repeat destruct K as [K|K]; try lra; auto.
  - reflexivity.
  - pose proof (Hk 0%nat ltac:(simpl; lia)) as E0. pose proof (Hk 1%nat ltac:(simpl; lia)) as E1.
    pose proof (Hk 2%nat ltac:(simpl; lia)) as E2. unfold vnth in E0, E1, E2. cbn [nth] in E0, E1, E2.
    exists p. repeat split; [exact Hl|exact E0|exact E1|exact E2|].
    rewrite (RInt_ext_all (fun x => peval p x ^ 2) (peval (pmul p p))) by (intros; rewrite peval_pmul; ring).
    rewrite exact_step by exact Hl. replace (t + 1 / 2 * h) with (t + h / 2) by field. now rewrite E0, E1, E2.
Qed.
Theorem exact_integral_all p h t : (length p <= 3)%nat ->
  exact_entry h (peval p t) (peval p (t + h / 2)) (peval p (t + h)) = RInt (fun x => peval p x ^ 2) t (t + h).
Proof.
  intros Hl.
  rewrite (RInt_ext_all (fun x => peval p x ^ 2) (peval (pmul p p))) by (intros; rewrite peval_pmul; ring).
  rewrite exact_step by exact Hl. now replace (t + 1 / 2 * h) with (t + h / 2) by field.
Qed.

Lemma exact_matrix N m arr arr_c h : shaped (S N) m arr -> shaped N m arr_c ->
  exists A, exact_cuadratic_squared_integration arr arr_c h = Ok A /\ shaped N m A /\
    forall i j, (i < N)%nat -> (j < m)%nat -> mget A i j = exact_entry h (mget arr i j) (mget arr_c i j) (mget arr (S i) j).
Proof.
  intros Ha Hc. pose proof (shaped_butlast1 _ _ _ Ha) as H1. pose proof (shaped_skip1 _ _ _ Ha) as H2.
  unfold exact_cuadratic_squared_integration.
  rewrite (same_shape_ok N m _ _ H1 Hc), (same_shape_ok N m _ _ Hc H2). cbn [andb]. eexists. split; [reflexivity|].
  set (f := fun (p : R * R) z => exact_entry h (fst p) (snd p) z).
  assert (Lr : forall i, (i < N)%nat -> nth i (map2 (fun ab c => map2 f ab c)
       (map2 (fun r s => combine r s) (butlastn 1 arr) arr_c) (skipn 1 arr)) []
     = map2 f (combine (mrow i (butlastn 1 arr)) (mrow i arr_c)) (mrow i (skipn 1 arr))).
  { intros i Hi. assert (E1 := proj1 H1). assert (E2 := proj1 H2). assert (E3 := proj1 Hc).
    rewrite (nth_map2 _ _ _ _ (@nil (R * R)) (@nil R) []) by (rewrite ?map2_length; lia).
    rewrite (nth_map2 (fun r s => combine r s) _ _ _ (@nil R) (@nil R) []) by lia. reflexivity. }
  split.
  - split; [rewrite !map2_length; assert (E1 := proj1 H1); assert (E2 := proj1 H2); assert (E3 := proj1 Hc); lia|].
    apply Forall_forall. intros r Hr. destruct (In_nth _ _ [] Hr) as (i & Hi & <-).
    rewrite !map2_length in Hi. assert (E1 := proj1 H1). assert (E2 := proj1 H2). assert (E3 := proj1 Hc).
    assert (Hi' : (i < N)%nat) by lia. fold f. rewrite (Lr i Hi'), map2_length, combine_length.
    rewrite (shaped_row N m _ i H1 Hi'), (shaped_row N m _ i Hc Hi'), (shaped_row N m _ i H2 Hi'). lia.
  - intros i j Hi Hj. unfold mget at 1, mrow at 1. fold f. rewrite (Lr i Hi).
    assert (L1 := shaped_row N m _ i H1 Hi). assert (L2 := shaped_row N m _ i Hc Hi). assert (L3 := shaped_row N m _ i H2 Hi).
    unfold vnth. rewrite (nth_map2 f _ _ _ (0, 0) 0 0) by (rewrite ?combine_length; lia).
    rewrite combine_nth by lia. unfold f. cbn [fst snd].
    change (nth j (mrow i (butlastn 1 arr)) 0) with (mget (butlastn 1 arr) i j).
    change (nth j (mrow i (skipn 1 arr)) 0) with (mget (skipn 1 arr) i j).
    rewrite mget_skip1, mget_butlast1 by (assert (E := proj1 Ha); lia). reflexivity.
Qed.

Theorem sq_cost_exact t0 tf N m arr arr_c W : t0 < tf -> (1 <= N)%nat -> shaped (S N) m arr -> shaped N m arr_c ->
  (forall j, (j < m)%nat -> stepwise_poly 3 t0 tf N (W j) /\ at_nodes (fun x => x) t0 tf N arr j (W j) /\
     at_steps (fun x => x) (1 / 2) t0 tf N arr_c j (W j)) ->
  eq_sq_cost t0 tf N arr (Some arr_c) = Ok (rsum m (fun j => RInt (fun t => W j t ^ 2) t0 tf)).
Proof.
  intros Ht HN Ha Hc HW. unfold eq_sq_cost.
  destruct (exact_matrix N m arr arr_c ((tf - t0) / INR N) Ha Hc) as (A & E & HA & Hget).
  cbn zeta. rewrite E. cbn [rbind]. f_equal. rewrite (shaped_mwidth _ _ _ HA) by lia.
  unfold sum2, sum1. rewrite vsum_map_seq. apply rsum_ext. intros j Hj.
  destruct (HW j Hj) as (Hp & Hn & Hs). rewrite (exact_RInt t0 tf N Ht HN _ Hp).
  rewrite (sum_all N j A) by apply HA. apply rsum_ext. intros i Hi.
  rewrite Hget, (Hn i), (Hn (S i)), (Hs i) by lia. reflexivity.
Qed.
Theorem sq_cost_default t0 tf N m arr : shaped (S N) m arr -> eq_sq_cost t0 tf N arr None = Err RuntimeError.
Proof.
  intros [H1 H2]. unfold eq_sq_cost, exact_cuadratic_squared_integration, same_shape.
  rewrite length_butlast1, map_length, H1.
  replace (S N - 1 =? S N)%nat with false by (symmetry; apply Nat.eqb_neq; lia). reflexivity.
Qed.

(** Constant controls, for every equispaced scheme. *)
Definition equispaced_schemes : list string :=
  ["euler"; "trapz"; "trapz_mod"; "trapz_n"; "hs"; "hs_mod"; "hs_parab"; "hs_mod_parab"; "hsj"; "hsj_parab";
   "hsj_parab_mod"; "hsn"; "hsn_parab"]%string.
Lemma RInt_constant k a b : RInt (fun _ => k) a b = (b - a) * k.
Proof. rewrite RInt_const. reflexivity. Qed.
Lemma stepwise_constant d t0 tf N k : (1 <= d)%nat -> stepwise_poly d t0 tf N (fun _ => k).
Proof. intros Hd i Hi. exists [k]. split; [exact Hd|]. intros t _. simpl. ring. Qed.
Theorem u_sq_constant t0 tf N m s u u_c u_j (k : nat -> R) : t0 < tf -> (1 <= N)%nat -> In s equispaced_schemes ->
  shaped (S N) m u -> shaped N m u_c -> shaped N m u_j ->
  (forall i j, (i <= N)%nat -> (j < m)%nat -> mget u i j = k j) ->
  (forall i j, (i < N)%nat -> (j < m)%nat -> mget u_c i j = k j /\ mget u_j i j = k j) ->
  fst (eq_u_sq_cost t0 tf N s u u_c u_j) = (tf - t0) * rsum m (fun j => k j ^ 2) /\
  satisfied (snd (eq_u_sq_cost t0 tf N s u u_c u_j)).
Proof.
  intros Ht HN Hs Hu Huc Huj Hk Hkc.
  assert (T : (tf - t0) * rsum m (fun j => k j ^ 2) = rsum m (fun j => RInt (fun _ => k j ^ 2) t0 tf)).
  { rewrite <- rsum_scal. apply rsum_ext. intros j _. now rewrite RInt_constant. }
  rewrite T. set (W := fun j (_ : R) => k j ^ 2).
  assert (Hn : forall j, (j < m)%nat -> at_nodes (fun x => x ^ 2) t0 tf N u j (W j)).
  { intros j Hj i Hi. unfold W. now rewrite Hk. }
  assert (Hst : forall f j, (j < m)%nat -> at_steps (fun x => x ^ 2) f t0 tf N u_c j (W j) /\ at_steps (fun x => x ^ 2) f t0 tf N u_j j (W j)).
  { intros f j Hj. split; intros i Hi; unfold W; destruct (Hkc i j Hi Hj) as [Ea Eb]; [now rewrite Ea|now rewrite Eb]. }
  change (rsum m (fun j => RInt (fun _ => k j ^ 2) t0 tf)) with (rsum m (fun j => RInt (W j) t0 tf)).
  assert (A1 : In s linear_u_schemes \/ In s simpson_u_schemes \/ s = "hsj_parab"%string \/ s = "hsj_parab_mod"%string).
  { unfold equispaced_schemes in Hs. simpl in Hs. simpl. intuition. }
  destruct A1 as [A1|[A1|[->| ->]]].
  - rewrite (u_sq_linear t0 tf N m Ht HN s u u_c u_j W A1 Hu).
    + split; [reflexivity|constructor].
    + intros j Hj. split; [apply stepwise_constant; lia|now apply Hn].
  - rewrite (u_sq_simpson t0 tf N m Ht HN s u u_c u_j W A1 Hu Huc).
    + split; [reflexivity|constructor].
    + intros j Hj. split; [apply stepwise_constant; lia|]. split; [now apply Hn|now apply Hst].
  - rewrite (u_sq_two_fifths t0 tf N m Ht HN u u_c u_j W Hu Huc).
    + split; [reflexivity|constructor].
    + intros j Hj. split; [apply stepwise_constant; lia|]. split; [now apply Hn|now apply Hst].
  - destruct (u_sq_parab_mod t0 tf N m Ht HN u u_c u_j W Hu Huc Huj) as (cs & E & Hsat).
    + intros j Hj. split; [apply stepwise_constant; lia|]. split; [now apply Hn|now apply Hst].
    + rewrite E. cbn [fst snd]. split; [reflexivity|]. apply Hsat. intros i j Hi Hj c Hl E0 E1 E2.
      destruct (Hkc i j Hi Hj) as [Ec Ej]. rewrite Ec. rewrite Hk in E0, E2 by lia. rewrite Ej in E1.
      destruct (parab_form c Hl) as (p & q & r & F). rewrite !F in *. nra.
Qed.

(** Concrete arrays. *)
Example cost_example :
  let u := [[0; 1]; [2; 0]; [1; 1]] in let u_c := [[1; 1]; [3; 0]] in
  exists W, forall j, (j < 2)%nat -> stepwise_poly 4 0 1 2 (W j) /\ at_nodes (fun x => x ^ 2) 0 1 2 u j (W j) /\
     at_steps (fun x => x ^ 2) (1 / 2) 0 1 2 u_c j (W j).
Proof.
  cbn zeta.
  assert (K : forall j, exists w, stepwise_poly 4 0 1 2 w /\
      at_nodes (fun x => x ^ 2) 0 1 2 [[0; 1]; [2; 0]; [1; 1]] j w /\
      at_steps (fun x => x ^ 2) (1 / 2) 0 1 2 [[1; 1]; [3; 0]] j w).
  { intros j. destruct (parabola_exists 0 1 2 (1 / 2) (fun i => mget [[0; 1]; [2; 0]; [1; 1]] i j ^ 2)
      (fun i => mget [[1; 1]; [3; 0]] i j ^ 2)) as (w & H1 & H2 & H3); [lra|lia|lra|].
    exists w. split; [apply (stepwise_le 3); [lia|exact H1]|]. split; assumption. }
  destruct (K 0%nat) as [w0 H0]. destruct (K 1%nat) as [w1 H1].
  exists (fun j => match j with O => w0 | _ => w1 end). intros [|[|j]] Hj; [exact H0|exact H1|lia].
Qed.
(** Every array has such an interpolant. *)
Theorem interpolants_exist t0 tf N (f : R) g A B : t0 < tf -> (1 <= N)%nat -> 0 < f < 1 -> forall j,
  exists w, stepwise_poly 3 t0 tf N w /\ at_nodes g t0 tf N A j w /\ at_steps g f t0 tf N B j w.
Proof. intros Ht HN Hf j. apply (parabola_exists t0 tf N f (fun i => g (mget A i j)) (fun i => g (mget B i j)) Ht HN Hf). Qed.
Theorem polylines_exist t0 tf N g A : t0 < tf -> (1 <= N)%nat -> forall j,
  exists w, stepwise_poly 2 t0 tf N w /\ at_nodes g t0 tf N A j w.
Proof. intros Ht HN j. apply (polyline_exists t0 tf N (fun i => g (mget A i j)) Ht HN). Qed.

Theorem exact_function N m arr arr_c h t : shaped (S N) m arr -> shaped N m arr_c ->
  exists A, exact_cuadratic_squared_integration arr arr_c h = Ok A /\ shaped N m A /\
    forall i j p, (i < N)%nat -> (j < m)%nat -> (length p <= 3)%nat ->
      peval p t = mget arr i j -> peval p (t + h / 2) = mget arr_c i j -> peval p (t + h) = mget arr (S i) j ->
      mget A i j = RInt (fun x => peval p x ^ 2) t (t + h).
Proof.
  intros S1 S2. destruct (exact_matrix N m arr arr_c h S1 S2) as (A & E & SA & V).
  exists A. split; [exact E|]. split; [exact SA|]. intros i j p Hi Hj L P1 P2 P3.
  rewrite (V i j Hi Hj), <- P1, <- P2, <- P3. apply exact_integral_all. exact L.
Qed.
Theorem parabola_through h t a b c : h <> 0 ->
  exists p, (length p <= 3)%nat /\ peval p t = a /\ peval p (t + h / 2) = b /\ peval p (t + h) = c.
Proof.
  intros Hh. destruct (exact_integral a b c h t Hh) as (p & L & A & B & C & _). exists p. auto.
Qed.
