(** Systems for the examples on equations of motion, and what the code gets wrong. *)
From Coq Require Import String FunctionalExtensionality.
From Coquelicot Require Import Coquelicot.
From Verif Require Import Prelude PreludeFacts PwInterpModel SymModel SymSpec LagrModel LagrSpec LagrFacts LagrProofs LagrAlgebra LagrReduceProofs LagrRhsProofs LagrMoreProofs LagrMotionProofs.
Open Scope R_scope.
Open Scope list_scope.

(** ** An inverse for matrices of up to two rows *)
Definition recip (j : nat) (x : R) : R := (-1) ^ j * INR (fact j) / x ^ S j.
Lemma recip_derive j x : x <> 0 -> is_derive (recip j) x (recip (S j) x).
Proof.
  intros Hx. unfold recip. 
  assert (Hp : forall k, x ^ k <> 0) by (intros; apply pow_nonzero; auto).
  evar_last.
  - apply (is_derive_scal (fun x => / x ^ S j) x ((-1) ^ j * INR (fact j))).
    apply (is_derive_inv (fun x => x ^ S j)); [|apply Hp].
    apply (is_derive_pow (fun x => x) (S j) x 1). apply is_derive_Reals. apply derivable_pt_lim_id.
  - rewrite fact_simpl, mult_INR. replace (Nat.pred (S j)) with j by reflexivity. unfold scal. cbn -[fact INR pow]. unfold mult. cbn -[fact INR pow].
    cbn [pow]. field. split; auto.
Qed.
Lemma recip_smooth j x : x <> 0 -> locally x (fun y => is_derive (recip j) y (recip (S j) y)).
Proof.
  intros Hx. assert (He : 0 < Rabs x) by (apply Rabs_pos_lt; auto). exists (mkposreal _ He). intros y Hy. apply recip_derive. intros ->.
  unfold ball in Hy. cbn in Hy. unfold AbsRing_ball, abs, minus, plus, opp in Hy. cbn in Hy. rewrite Rplus_0_l, Rabs_Ropp in Hy. lra.
Qed.
Definition det2 (A : emat) : expr := Minus (Times (A 0 0)%nat (A 1 1)%nat) (Times (A 0 1)%nat (A 1 0)%nat).
Definition inv2 (k : nat) (A : emat) : Res emat :=
  match k with
  | 0%nat => Ok A
  | 1%nat => Ok (fun _ _ => Func recip 0 (A 0 0)%nat)
  | 2%nat => let d := Func recip 0 (det2 A) in
       Ok (fun i j => match i, j with
                      | 0, 0 => Times d (A 1 1)
                      | 0, _ => Neg (Times d (A 0 1))
                      | _, 0 => Neg (Times d (A 1 0))
                      | _, _ => Times d (A 0 0)
                      end)%nat
  | _ => Err ValueError
  end.
Lemma recip0 x : recip 0 x = / x.
Proof. unfold recip. cbn. replace (x * 1) with x by ring. unfold Rdiv. ring. Qed.
Lemma det_nonzero a b c d x y z w : 0 + a * x + b * z = 1 -> 0 + a * y + b * w = 0 -> 0 + c * x + d * z = 0 -> 0 + c * y + d * w = 1 -> a * d - b * c <> 0.
Proof.
  intros E1 E2 E3 E4 E.
  assert (X : (a * d - b * c) * (x * w - y * z) = (0 + a * x + b * z) * (0 + c * y + d * w) - (0 + a * y + b * w) * (0 + c * x + d * z)) by ring.
  rewrite E1, E2, E3, E4, E in X. lra.
Qed.
Lemma inv2_inverts : inverts inv2.
Proof.
  intros k A N H rho [B [H1 H2]]. destruct k as [|[|[|k]]]; cbn [inv2] in H; [| | |discriminate].
  - injection H as <-. split; [split; intros; lia | intros; lia].
  - injection H as <-.
    assert (Ha : eval rho (A 0 0)%nat <> 0).
    { specialize (H1 0 0 ltac:(lia) ltac:(lia))%nat. cbn in H1. unfold ev, delta in H1. cbn in H1. intros E. rewrite E in H1. lra. }
    split.
    + split; intros i j Hi Hj; destruct i as [|i], j as [|j]; try lia; cbn; unfold ev; cbn [eval]; rewrite recip0; unfold delta; cbn; field; auto.
    + intros Hs i j Hi Hj. cbn [smooth_at]. split; [apply Hs; lia|]. intros l. apply recip_smooth; auto.
  - injection H as <-.
    assert (Hd : eval rho (det2 A) <> 0).
    { pose proof (H1 0 0 ltac:(lia) ltac:(lia))%nat as E1. pose proof (H1 0 1 ltac:(lia) ltac:(lia))%nat as E2.
      pose proof (H1 1 0 ltac:(lia) ltac:(lia))%nat as E3. pose proof (H1 1 1 ltac:(lia) ltac:(lia))%nat as E4.
      cbn in E1, E2, E3, E4. unfold ev, delta in *. cbn in E1, E2, E3, E4. unfold det2. rewrite eval_Minus. cbn [eval].
      exact (det_nonzero _ _ _ _ _ _ _ _ E1 E2 E3 E4). }
    split.
    + unfold det2, Minus, Neg in Hd. cbn [eval] in Hd.
      split; intros i j Hi Hj; destruct i as [|[|i]], j as [|[|j]]; try lia; unfold ev, det2, Minus, Neg; cbn [rsum eval]; rewrite !recip0;
        unfold delta; cbn [Nat.eqb]; field; intros X; apply Hd; lra.
    + intros Hs i j Hi Hj.
      assert (Sd : smooth_at rho (Func recip 0 (det2 A))).
      { cbn [smooth_at]. split; [|intros l; apply recip_smooth; auto]. unfold det2. apply smooth_Minus; cbn [smooth_at]; split; apply Hs; lia. }
      destruct i as [|[|i]], j as [|[|j]]; try lia; try apply smooth_Neg; split; auto; apply Hs; lia.
Qed.

(** ** Sine and cosine *)
Definition cosf (j : nat) (x : R) : R := cos (x + INR j * (PI / 2)).
Lemma cosf_derive j x : is_derive (cosf j) x (cosf (S j) x).
Proof.
  unfold cosf. evar_last. { auto_derive; auto. }
  rewrite S_INR. replace (x + (INR j + 1) * (PI / 2)) with (PI / 2 + (x + INR j * (PI / 2))) by field. rewrite sin_cos. ring.
Qed.
Lemma cosf_smooth rho e : smooth_at rho e -> smooth_at rho (Func cosf 0 e).
Proof. intros H. split; auto. intros j. exists (mkposreal 1 Rlt_0_1). intros y _. apply cosf_derive. Qed.
Lemma everywhere_open : line_open (fun _ => True).
Proof. intros rho d _. exists (mkposreal 1 Rlt_0_1). auto. Qed.
Definition q_ (i k : nat) : expr := Var (Dyn ("q_" ++ str_nat i)%string k).

(** ** A double pendulum, without constraints *)
Definition c1 : expr := Func cosf 0 (q_ 1 0).
Definition pend_m (i j : nat) : expr :=
  match i, j with
  | 0, 0 => Plus (Num 3) (Times (Num 2) c1)
  | 1, 1 => Num 1
  | _, _ => Plus (Num 1) c1
  end%nat.
Definition pend_V : expr := Func cosf 0 (Plus (q_ 0 0) (q_ 1 0)).
Definition pend : lagrange :=
  {| lg_L := Minus (Plus (Plus (Times (Num (/ 2)) (Times (Plus (Num 3) (Times (Num 2) c1)) (Times (q_ 0 1) (q_ 0 1))))
                               (Times (Plus (Num 1) c1) (Times (q_ 0 1) (q_ 1 1))))
                         (Times (Num (/ 2)) (Times (q_ 1 1) (q_ 1 1)))) pend_V;
     lg_qs := ["q_0"; "q_1"]%string;
     lg_forces := fun i => Var (Static ("u_" ++ str_nat i)%string);
     lg_coneqs := [] |}.
Lemma two_names : NoDup ["q_0"; "q_1"]%string.
Proof. constructor; [cbn; intros [H|[]]; discriminate H|]. constructor; [intros [] | constructor]. Qed.
Ltac list_cases := cbn; intros; repeat match goal with
  | H : _ \/ _ |- _ => destruct H as [H|H]
  | H : False |- _ => destruct H
  | H : Dyn _ _ = Dyn _ _ |- _ => injection H as <- <-
  | H : Dyn _ _ = Static _ |- _ => discriminate H
  | H : Static _ = Dyn _ _ |- _ => discriminate H
  end.
Lemma pend_natural : natural (fun _ => True) pend pend_m pend_V.
Proof.
  constructor.
  - apply everywhere_open.
  - apply two_names.
  - intros rho _. cbn [lg_L pend]. apply smooth_Minus; [|apply cosf_smooth; cbn; auto].
    cbn [smooth_at q_]. assert (S1 : smooth_at rho c1) by (apply cosf_smooth; exact I). tauto.
  - unfold up_to. list_cases; auto.
  - intros i j Hi Hj. cbn in Hi, Hj. split.
    + intros rho _. assert (S1 : smooth_at rho c1) by (apply cosf_smooth; exact I).
      destruct i as [|[|i]], j as [|[|j]]; try lia; cbn [pend_m smooth_at]; tauto.
    + intros a. destruct i as [|[|i]], j as [|[|j]]; try lia; cbn; intros Ha; repeat destruct Ha as [Ha|Ha]; try contradiction; subst a; right; eexists; split; try reflexivity; cbn; auto.
  - split.
    + intros rho _. apply cosf_smooth. cbn. auto.
    + intros a. cbn. intros Ha; repeat destruct Ha as [Ha|Ha]; try contradiction; subst a; right; eexists; split; try reflexivity; cbn; auto.
  - intros i Hi nm k Hn Hk. cbn. intros [H|[]]. discriminate H.
  - intros i Hi rho _. exact I.
  - intros rho i j _ Hi Hj. cbn in Hi, Hj. destruct i as [|[|i]], j as [|[|j]]; try lia; reflexivity.
  - intros rho _. unfold lg_q, qd. cbn -[cosf]. field.
Qed.

(** ** A constrained system: cos(q_0) q_0' + q_1' = 0 *)
Definition slide (L : expr) (F : nat -> expr) (con : expr) : lagrange :=
  {| lg_L := L; lg_qs := ["q_0"; "q_1"]%string; lg_forces := F; lg_coneqs := [con] |}.
Definition sq (e : expr) : expr := Times e e.
Definition L_free : expr := Times (Num (/ 2)) (Plus (sq (q_ 0 1)) (sq (q_ 1 1))).
Definition track : lagrange :=
  slide L_free (fun i => Var (Static ("u_" ++ str_nat i)%string)) (Plus (Times (Func cosf 0 (q_ 0 0)) (q_ 0 1)) (q_ 1 1)).
Definition track_B (k j : nat) : expr := match j with 0%nat => Func cosf 0 (q_ 0 0) | _ => Num 1 end.
Lemma posdef_of n A A' : (forall i j, (i < n)%nat -> (j < n)%nat -> A i j = A' i j) -> posdef n A -> posdef n A'.
Proof.
  intros E H x Hx. rewrite (rsum_ext n _ (fun i => x i * mv n A x i)); [apply H; auto|].
  intros i Hi. f_equal. unfold mv. apply rsum_ext. intros j Hj. now rewrite E.
Qed.
Lemma posdef_2 a b d (A : nat -> nat -> R) : A 0%nat 0%nat = a -> A 0%nat 1%nat = b -> A 1%nat 0%nat = b -> A 1%nat 1%nat = d ->
  0 < a -> 0 < a * d - b * b -> posdef 2 A.
Proof.
  intros E1 E2 E3 E4 Ha Hd x (i & Hi & Hx). cbn [rsum]. unfold mv. cbn [rsum]. rewrite E1, E2, E3, E4.
  set (u := x 0%nat) in *. set (v := x 1%nat) in *.
  replace (0 + u * (0 + a * u + b * v) + v * (0 + b * u + d * v)) with (((a * u + b * v) ^ 2 + (a * d - b * b) * v ^ 2) / a) by (field; lra).
  apply Rmult_lt_0_compat; [|apply Rinv_0_lt_compat; auto].
  destruct (Req_dec v 0) as [Hv|Hv].
  - assert (Hu : u <> 0). { destruct i as [|[|i]]; [exact Hx | contradiction | lia]. }
    rewrite Hv. replace ((a * u + b * 0) ^ 2 + (a * d - b * b) * 0 ^ 2) with (a * a * (u * u)) by ring.
    apply Rmult_lt_0_compat; [nra|]. apply Rsqr_pos_lt; auto.
  - assert (0 < v ^ 2) by (cbn; rewrite Rmult_1_r; apply Rsqr_pos_lt; auto).
    assert (0 <= (a * u + b * v) ^ 2) by apply pow2_ge_0. nra.
Qed.
Section Slide.
Variables (L : expr) (F : nat -> expr) (con : expr) (B : emat) (a b d : R).
Hypothesis sL : forall rho, smooth_at rho L.
Hypothesis uL : up_to 1 L.
Hypothesis nF : forall i, (i < 2)%nat -> no_acc ["q_0"; "q_1"]%string (F i).
Hypothesis sc : forall rho, smooth_at rho con.
Hypothesis uc : up_to 1 con.
Hypothesis vc : forall rho, eval rho con = eval rho (B 0 0)%nat * rho (Dyn "q_0" 1) + eval rho (B 0 1)%nat * rho (Dyn "q_1" 1).
Hypothesis sB : forall j, (j < 2)%nat -> (forall rho, smooth_at rho (B 0%nat j)) /\ of_position ["q_0"; "q_1"]%string (B 0%nat j).
Hypothesis dB : forall rho, eval rho (B 0 1)%nat = 1.
Hypothesis M00 : forall rho, eval rho (diff (Dyn "q_0" 1) (diff (Dyn "q_0" 1) L)) = a.
Hypothesis M01 : forall rho, eval rho (diff (Dyn "q_1" 1) (diff (Dyn "q_0" 1) L)) = b.
Hypothesis M10 : forall rho, eval rho (diff (Dyn "q_0" 1) (diff (Dyn "q_1" 1) L)) = b.
Hypothesis M11 : forall rho, eval rho (diff (Dyn "q_1" 1) (diff (Dyn "q_1" 1) L)) = d.
Hypothesis pos : 0 < a /\ 0 < a * d - b * b.
Lemma slide_mechanism : mechanism (fun _ => True) (slide L F con) B.
Proof.
  constructor.
  - apply everywhere_open.
  - apply two_names.
  - split; [intros rho _; apply sL | exact uL].
  - exact nF.
  - cbn. lia.
  - intros k Hk. cbn in Hk. assert (k = 0)%nat as -> by lia. cbn [slide lg_coneqs nth]. repeat split.
    + intros rho _. apply sc.
    + exact uc.
    + intros rho _. rewrite vc. unfold lg_q, qd. cbn [slide lg_n lg_qs length rsum nth]. ring.
  - intros k j Hk Hj. cbn in Hk, Hj. assert (k = 0)%nat as -> by lia. destruct (sB j Hj) as [H1 H2]. split; auto. intros rho _. apply H1.
  - intros rho _. cbn [slide lg_coneqs lg_n lg_qs length]. exists (fun _ _ => 1).
    split; intros i j Hi Hj; assert (i = 0)%nat as -> by lia; assert (j = 0)%nat as -> by lia; cbn [rsum]; unfold delta; cbn [Nat.eqb Nat.sub Nat.add]; rewrite dB; ring.
  - intros rho _. cbn [slide lg_n lg_qs length lg_L].
    assert (E : forall i j, partial (partial (fun r => eval r L) (lg_q (slide L F con) 1 i)) (lg_q (slide L F con) 1 j) rho =
                       eval rho (diff (lg_q (slide L F con) 1 j) (diff (lg_q (slide L F con) 1 i) L))).
    { intros i j. apply (partial_partial (fun _ => True)); auto using everywhere_open. intros r _. apply sL. }
    apply (posdef_2 a b d); try tauto; rewrite E; unfold lg_q, qd; cbn [slide lg_qs nth]; auto.
Qed.
End Slide.
Ltac atom_cases := repeat match goal with |- context [atom_eq_dec ?x ?y] => destruct (atom_eq_dec x y); [try congruence | try congruence] end.
Lemma L_free_smooth rho : smooth_at rho L_free. Proof. cbn. tauto. Qed.
Lemma L_free_up : up_to 1 L_free. Proof. unfold up_to. list_cases; auto. Qed.
Lemma track_mechanism : mechanism (fun _ => True) track track_B.
Proof.
  apply (slide_mechanism _ _ _ _ 1 0 1).
  - apply L_free_smooth.
  - apply L_free_up.
  - intros i _ nm k _ _ H. cbn in H. destruct H as [H|[]]. discriminate H.
  - intros rho. split; [split; [apply cosf_smooth; exact I | exact I] | exact I].
  - unfold up_to. list_cases; auto.
  - intros rho. cbn. ring.
  - intros j Hj. destruct j as [|[|j]]; [| |lia]; cbn [track_B]; split.
    + intros rho. apply cosf_smooth; exact I.
    + intros x Hx. cbn in Hx. destruct Hx as [<-|[]]. right. exists "q_0"%string. cbn. auto.
    + intros rho. exact I.
    + intros x [].
  - intros rho. reflexivity.
  - intros rho. cbn. field.
  - intros rho. cbn. field.
  - intros rho. cbn. field.
  - intros rho. cbn. field.
  - lra.
Qed.
Definition reduced_of (s : lagrange) : Res reduction :=
  reduce inv2 (lg_n s) (length (lg_coneqs s)) (m_d s) (lam_coeffs s) (f_d s) (fun i => Var (lg_q s 1 i)).
Lemma track_reduces : exists r, reduced_of track = Ok r.
Proof. eexists. reflexivity. Qed.

(** ** Motions of two coordinates *)
Definition two (p0 p1 : nat -> R -> R) (t : R) : env := fun a =>
  match a with
  | Static _ => 0
  | Dyn nm k => if string_dec nm "q_0" then p0 k t else if string_dec nm "q_1" then p1 k t else 0
  end.
Lemma two_motion p0 p1 : (forall k t, is_derive (p0 k) t (p0 (S k) t)) -> (forall k t, is_derive (p1 k) t (p1 (S k) t)) -> motion (two p0 p1).
Proof.
  intros H0 H1. split; [|reflexivity]. intros nm k t. unfold two.
  destruct (string_dec nm "q_0"); [apply H0|]. destruct (string_dec nm "q_1"); [apply H1|]. apply (is_derive_const (V := R_NormedModule) 0).
Qed.
(** c t^2 / 2 and its derivatives *)
Definition par (c : R) (k : nat) (t : R) : R := match k with 0%nat => c * t ^ 2 / 2 | 1%nat => c * t | 2%nat => c | _ => 0 end.
Lemma par_derive c k t : is_derive (par c k) t (par c (S k) t).
Proof.
  destruct k as [|[|[|k]]]; unfold par.
  - auto_derive; auto. field.
  - auto_derive; auto. ring.
  - apply (is_derive_const (V := R_NormedModule) c).
  - apply (is_derive_const (V := R_NormedModule) 0).
Qed.
(** v t and its derivatives *)
Definition lin (v : R) (k : nat) (t : R) : R := match k with 0%nat => v * t | 1%nat => v | _ => 0 end.
Lemma lin_derive v k t : is_derive (lin v k) t (lin v (S k) t).
Proof.
  destruct k as [|[|k]]; unfold lin.
  - auto_derive; auto. ring.
  - apply (is_derive_const (V := R_NormedModule) v).
  - apply (is_derive_const (V := R_NormedModule) 0).
Qed.

(** ** Multipliers *)
Definition L_mix : expr := Plus (Plus (sq (q_ 0 1)) (Times (q_ 0 1) (q_ 1 1))) (sq (q_ 1 1)).
Definition push (i : nat) : expr := match i with 0%nat => Num 1 | _ => Num 0 end.
Definition opposite : expr := Plus (q_ 0 1) (q_ 1 1).
Definition ones (k j : nat) : expr := Num 1.
Definition mixed : lagrange := slide L_mix push opposite.
Definition apart : lagrange := slide L_free push opposite.
Lemma opposite_mechanism L a b d : (forall rho, smooth_at rho L) -> up_to 1 L ->
  (forall rho, eval rho (diff (Dyn "q_0" 1) (diff (Dyn "q_0" 1) L)) = a) ->
  (forall rho, eval rho (diff (Dyn "q_1" 1) (diff (Dyn "q_0" 1) L)) = b) ->
  (forall rho, eval rho (diff (Dyn "q_0" 1) (diff (Dyn "q_1" 1) L)) = b) ->
  (forall rho, eval rho (diff (Dyn "q_1" 1) (diff (Dyn "q_1" 1) L)) = d) -> 0 < a /\ 0 < a * d - b * b ->
  mechanism (fun _ => True) (slide L push opposite) ones.
Proof.
  intros HS HU H0 H1 H2 H3 HP. apply (slide_mechanism _ _ _ _ a b d); auto.
  - intros i _ nm k _ _ H. destruct i as [|i]; cbn in H; contradiction.
  - intros rho. cbn. auto.
  - unfold up_to. list_cases; auto.
  - intros rho. cbn. ring.
  - intros j Hj. split; [intros rho; exact I | intros x []].
Qed.
Lemma mixed_mechanism : mechanism (fun _ => True) mixed ones.
Proof.
  apply (opposite_mechanism _ 2 1 2); try (intros rho; cbn; ring).
  - intros rho. cbn. tauto.
  - unfold up_to. list_cases; auto.
  - lra.
Qed.
Lemma apart_mechanism : mechanism (fun _ => True) apart ones.
Proof.
  apply (opposite_mechanism _ 1 0 1); try (intros rho; cbn; field).
  - apply L_free_smooth.
  - apply L_free_up.
  - lra.
Qed.
Definition parting : R -> env := two (par (/ 2)) (par (- / 2)).
Lemma parting_motion : motion parting.
Proof. apply two_motion; apply par_derive. Qed.
Lemma parting_constrained L F t : constrained (slide L F opposite) (parting t).
Proof. intros k Hk. cbn in Hk. assert (k = 0)%nat as -> by lia. cbn. unfold par. field. Qed.
Lemma parting_obeys s t : s = mixed \/ s = apart -> obeys s parting t (fun _ => - / 2).
Proof.
  intros Hs i Hi.
  assert (Sm : forall x, smooth_at (parting x) (lg_L s)).
  { intros x. destruct Hs as [->| ->]; [exact (proj1 (me_L _ _ _ mixed_mechanism) _ I) | exact (proj1 (me_L _ _ _ apart_mechanism) _ I)]. }
  rewrite euler_lagrange_value by (auto using parting_motion).
  assert (Sc : smooth_at (parting t) opposite) by (cbn; auto).
  assert (Hi2 : i = 0%nat \/ i = 1%nat). { destruct Hs as [->| ->]; cbn in Hi; lia. }
  assert (Ec : rsum (length (lg_coneqs s)) (fun k => - / 2 * partial (fun rho => eval rho (nth k (lg_coneqs s) (Num 0))) (lg_q s 1 i) (parting t)) = - / 2).
  { destruct Hs as [->| ->]; cbn [mixed apart slide lg_coneqs length rsum nth]; rewrite partial_diff by auto; destruct Hi2 as [->| ->]; cbn; ring. }
  rewrite Ec. destruct Hs as [->| ->], Hi2 as [->| ->]; cbn; unfold par; field.
Qed.
Definition lambda_of (s : lagrange) (r : reduction) : evec := lambda_vector (lg_n s) (length (lg_coneqs s)) (m_d s) (f_d s) (fun i => Var (lg_q s 1 i)) r.
Definition complete_of (s : lagrange) (r : reduction) : list expr := rhs_complete_list (lg_n s) (length (lg_coneqs s)) (fun i => Var (lg_q s 1 i)) r.
Ltac eval_recip := cbn -[recip]; rewrite !recip0; unfold par, lin.
Lemma mixed_lambda : exists r, reduced_of mixed = Ok r /\ forall t, eval (parting t) (lambda_of mixed r 0%nat) = -1.
Proof. eexists. split; [reflexivity|]. intros t. eval_recip. field. Qed.
Lemma apart_lambda : exists r, reduced_of apart = Ok r /\ forall t, eval (parting t) (lambda_of apart r 0%nat) = - / 2.
Proof. eexists. split; [reflexivity|]. intros t. eval_recip. field. Qed.

(** ** A constraint with a term without velocities: q_1' + q_0 = 0 *)
Definition offset : lagrange := slide L_free (fun _ => Num 0) (Plus (q_ 1 1) (q_ 0 0)).
Definition drift : R -> env := two (lin 1) (lin 0).
Lemma offset_drifts : exists r, reduced_of offset = Ok r /\ motion drift /\
  (forall t i, (i < 2)%nat -> is_derive (fun x => drift x (lg_q offset 1 i)) t (eval (drift t) (nth (2 + i) (complete_of offset r) (Num 0)))) /\
  constrained offset (drift 0) /\ ~ constrained offset (drift 1).
Proof.
  eexists. split; [reflexivity|]. assert (Hm : motion drift) by (apply two_motion; apply lin_derive). split; [exact Hm|]. split; [|split].
  - intros t i Hi. pose proof (proj1 Hm) as Hd. destruct i as [|[|i]]; [| |lia].
    + evar_last. { apply (Hd "q_0"%string 1%nat). } eval_recip. field.
    + evar_last. { apply (Hd "q_1"%string 1%nat). } eval_recip. field.
  - intros k Hk. cbn in Hk. assert (k = 0)%nat as -> by lia. cbn. unfold lin. ring.
  - intros H. specialize (H 0%nat ltac:(cbn; lia)). cbn in H. unfold lin in H. lra.
Qed.
