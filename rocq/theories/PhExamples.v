(** Concrete multi-segment problems: a mass with a constant force meets the
    hypotheses of the theorems of C40; a Jacobi scheme of order 1 does not. *)
From Coq Require Import String.
From Coquelicot Require Import Coquelicot.
From Verif Require Import Prelude PreludeFacts Poly PolyFacts PolyInterp Mat MatFacts
  PwInterpModel PsModel JacobiFacts PsSpec PsPointsProofs PsBaryProofs PsNodesProofs PsProblemProofs PsApplyProofs PsInterpProofs PsMoreProofs
  UtilModel UtilSpec GaussFacts UtilProofs BuTdModel BuTdSpec BuTdFacts BuTdProofs BuTdApplyProofs PhModel PhSpec PhProofs PhSegProofs PhBtProofs PhPsProofs PhMoreProofs PhJoinProofs PhFinalProofs.
Open Scope R_scope.
Open Scope vec_scope.
Open Scope list_scope.

(** q = t^2, v = 2 t, u = 2. *)
Definition mass_problem (k : ph_mode) (s : string) : ph_problem :=
  {| ph_kind := k; ph_scheme := s; ph_order := 2; ph_n_q := 1; ph_t_start := 0; ph_t_end := 3 |}.
Definition mass_motion (rr : list R -> list R) (ns : list nat) (t : vec) : ph_values :=
  {| hv_x := map (fun a => [a * a; 2 * a]) t; hv_x_d := map (fun a => [2 * a; 2]) t; hv_u := map (fun _ => [2]) t;
     hv_lam := [];
     hv_q_constr := map (fun s => map (fun a => [a * a])
        (tau_to_t_points (LGL rr (nth s ns 0%nat + 2)) (vnth t (knot_row ns s)) (vnth t (knot_row ns (s + 1))))) (seq 0 (length ns)) |}.

Lemma mass_chain : residual_has_chain 1 2 mass.
Proof.
  intros x x_d u lam Lx Ld H. destruct x as [|a [|b [|c x]]]; try discriminate. destruct x_d as [|a' [|b' [|c' x_d]]]; try discriminate.
  unfold mass in H. inversion H as [|? ? E _]; subst. unfold vnth in E. cbn [nth] in E. cbv. f_equal. lra.
Qed.
Lemma map_row (f : R -> vec) t r : (r < length t)%nat -> mrow r (map f t) = f (vnth t r).
Proof. intros H. unfold mrow, vnth. now rewrite (nth_map' _ _ _ 0). Qed.
Lemma map_shaped (f : R -> vec) m t n : length t = n -> (forall a, length (f a) = m) -> shaped n m (map f t).
Proof.
  intros L H. split; [now rewrite map_length|]. apply Forall_forall. intros r I. apply in_map_iff in I. now destruct I as (a & <- & _).
Qed.
Lemma full_state_parabola a : full_state 2 [[0; 0; 1]] a = [a * a; 2 * a].
Proof.
  unfold full_state, rate_n_at. cbn [seq flat_map map app]. rewrite !Derive_n_peval. cbn.
  f_equal; [ring|]. f_equal. ring.
Qed.
Lemma full_rate_parabola a : full_rate 2 [[0; 0; 1]] a = [2 * a; 2].
Proof.
  unfold full_rate, rate_n_at. cbn [seq flat_map map app]. rewrite !Derive_n_peval. cbn.
  f_equal; [ring|]. f_equal. ring.
Qed.
Lemma state_parabola a : state_at [[0; 0; 1]; [0; 2]] a = [a * a; 2 * a] /\ rate_at [[0; 0; 1]; [0; 2]] a = [2 * a; 2].
Proof.
  unfold state_at, rate_at. cbn [map]. rewrite !Derive_peval. cbn. split; f_equal; try ring; f_equal; ring.
Qed.

Section Mass.
Variable rr : list R -> list R.
Hypothesis OK : real_roots_ok rr.
Variable lg : nat -> vec * vec.
Hypothesis LGOK : leggauss_ok lg.
Let ns := [2; 3]%nat.
Let knots := [1].

Lemma mass_knots : good_knots 0 3 [1].
Proof. split; [constructor; [lra|constructor]|]. intros i j H. simpl in H. lia. Qed.
Lemma mass_enough s : Forall (enough_points s) ns.
Proof. constructor; [|constructor; [|constructor]]; (split; [lia|intros _; lia]). Qed.
Lemma mass_controls rr' t : length t = ph_n_arr ns -> knot_controls t ns (hv_u (mass_motion rr' ns t)) 1.
Proof.
  intros L.
  assert (EX : forall s tq, (s < 2)%nat -> extrapolates (seg_times t ns s) (seg_part (hv_u (mass_motion rr' ns t)) ns s) 1 tq [2]).
  { intros s tq Hs. exists [[2]]. split; [reflexivity|]. split.
    - intros j Hj. destruct j; [|simpl in Hj; lia]. split.
      + unfold seg_times. rewrite map_length, seq_length. destruct s as [|[|s]]; simpl; lia.
      + unfold seg_times at 1. rewrite map_length, seq_length. intros i Hi.
        unfold seg_part. rewrite vnth_mcol by (now rewrite map_length, seq_length).
        unfold mget. unfold mrow at 1. rewrite (nth_map' _ _ _ 0%nat) by (now rewrite seq_length). rewrite seq_nth by exact Hi.
        cbn [hv_u mass_motion]. rewrite (map_row (fun _ => [2])).
        * unfold vnth. cbn [nth peval]. ring.
        * rewrite L. apply (point_row_bound knots ns eq_refl); [|exact Hi]. simpl. lia.
    - unfold state_at. cbn [map peval]. f_equal. ring. }
  assert (KR : forall k, (k <= 2)%nat -> mrow (knot_row ns k) (hv_u (mass_motion rr' ns t)) = [2]).
  { intros k Hk. cbn [hv_u mass_motion]. apply (map_row (fun _ => [2])). rewrite L. now apply knot_row_lt. }
  split; [|rewrite KR by (simpl; lia); apply (EX 1%nat); lia]. intros s Hs. rewrite KR by (simpl in Hs; lia). apply EX. simpl in Hs. lia.
Qed.

Lemma mass_shapes t : length t = ph_n_arr ns ->
  shaped (ph_n_arr ns) 2 (hv_x (mass_motion rr ns t)) /\ shaped (ph_n_arr ns) 2 (hv_x_d (mass_motion rr ns t)) /\
  shaped (ph_n_arr ns) 1 (hv_u (mass_motion rr ns t)).
Proof. intros L. split; [|split]; apply map_shaped; auto. Qed.
Lemma mass_times k s : In s all_schemes -> exists t, ph_t_arr rr (mass_problem k s) knots ns = Ok t /\ length t = ph_n_arr ns.
Proof.
  intros H. destruct (times_ordered rr OK (mass_problem k s) knots ns H (mass_enough s) eq_refl ltac:(simpl; lra) mass_knots) as (t & E & L & _).
  eauto.
Qed.
Lemma mass_segment s k t P n : length t = ph_n_arr ns -> (s < 2)%nat -> P = [[0; 0; 1]] -> (3 <= n)%nat ->
  segment_motion mass n 1 2 t ns (hv_x (mass_motion rr ns t)) (hv_x_d (mass_motion rr ns t)) (hv_u (mass_motion rr ns t)) k s P.
Proof.
  intros L Hs -> Hn. unfold segment_motion, motion_on.
  assert (B : forall j, (j <= 2)%nat -> (knot_row ns j < length t)%nat) by (intros j Hj; rewrite L; now apply knot_row_lt).
  cbn [hv_x hv_x_d hv_u mass_motion]. rewrite !full_state_parabola.
  rewrite !(map_row (fun a => [a * a; 2 * a])) by (apply B; lia).
  split; [reflexivity|]. split; [constructor; [simpl; lia|constructor]|]. split; [reflexivity|]. split; [reflexivity|].
  unfold seg_times. rewrite map_length, seq_length. intros i Hi. rewrite vnth_map_seq by exact Hi.
  assert (Bi : (point_row ns s i < length t)%nat) by (rewrite L; apply (point_row_bound knots ns eq_refl); [simpl; lia|exact Hi]).
  rewrite full_state_parabola, full_rate_parabola. rewrite !map_row by exact Bi.
  split; [reflexivity|]. split; [reflexivity|].
  unfold mass, vnth. cbn [nth]. constructor; [ring|]. constructor; [ring|constructor].
Qed.

Theorem mass_td s : In s bt_schemes -> exists t cs, ph_t_arr rr (mass_problem Ph_td s) knots ns = Ok t /\
  ph_apply_scheme rr lg mass (mass_problem Ph_td s) knots ns (mass_motion rr ns t) = Ok cs /\ satisfied cs /\ (20 <= length cs)%nat.
Proof.
  intros H. destruct (mass_times Ph_td s (bt_all_schemes s H)) as (t & Et & L).
  destruct (mass_shapes t L) as (S1 & S2 & S3).
  assert (B : forall j, (j <= 2)%nat -> (knot_row ns j < length t)%nat) by (intros j Hj; rewrite L; now apply knot_row_lt).
  assert (QS : forall r, (r < 2)%nat -> nth r (hv_q_constr (mass_motion rr ns t)) [] =
     map (fun a => [a * a]) (tau_to_t_points (LGL rr (nth r ns 0%nat + 2)) (vnth t (knot_row ns r)) (vnth t (knot_row ns (r + 1))))).
  { intros r Hr. cbn [hv_q_constr mass_motion]. rewrite (nth_map' _ _ _ 0%nat) by (rewrite seq_length; simpl; lia). rewrite seq_nth by (simpl; lia). reflexivity. }
  assert (LL : forall n, (2 <= n)%nat -> length (LGL rr n) = n).
  { intros n Hn. destruct (matrix_D_nu_ok rr OK n Hn) as (c' & _ & _ & LL & _). exact LL. }
  destruct (td_join rr OK lg mass (mass_problem Ph_td s) knots ns (mass_motion rr ns t) 1 t eq_refl ltac:(simpl; lra) mass_knots (mass_enough s)
     ltac:(simpl; lia) ltac:(simpl; lia) S1 S2 S3 Et eq_refl H mass_chain) as (cs & Ecs & I).
  { intros r Hr. change (length ns) with 2%nat in Hr. rewrite QS by exact Hr. apply map_shaped; [|reflexivity]. rewrite times_length. apply LL. destruct r as [|[|r]]; simpl; lia. }
  exists t, cs. split; [exact Et|]. split; [exact Ecs|]. split.
  - apply I. split; [|now apply mass_controls].
    exists [[[0; 0; 1]]; [[0; 0; 1]]]. split; [reflexivity|]. intros r Hr. change (length ns) with 2%nat in Hr.
    assert (EP : nth r [[[0; 0; 1]]; [[0; 0; 1]]] [] = [[0; 0; 1]]) by (destruct r as [|[|r]]; [reflexivity|reflexivity|lia]).
    rewrite EP. cbn [ph_order ph_n_q mass_problem]. rewrite !full_rate_parabola.
    split; [apply mass_segment; auto; destruct r as [|[|r]]; simpl; lia|].
    split; [cbn [hv_x_d mass_motion]; apply (map_row (fun a => [2 * a; 2])), B; lia|].
    split; [cbn [hv_x_d mass_motion]; apply (map_row (fun a => [2 * a; 2])), B; lia|].
    intros i Hi. rewrite QS by exact Hr. rewrite (map_row (fun a => [a * a])).
    + unfold state_at. cbn [map peval]. f_equal. ring.
    + rewrite times_length, LL; [exact Hi|destruct r as [|[|r]]; simpl; lia].
  - clear I. unfold ph_apply_scheme in Ecs. destruct (get_coll_indices _); [|discriminate]. cbn [rbind] in Ecs.
    destruct (mapm _ _) as [c1|] eqn:E1; [|discriminate]. cbn [rbind] in Ecs. destruct (mapm (fun k => ph_u_start _ _ _) _) as [c2|] eqn:E2; [|discriminate]. cbn [rbind] in Ecs.
    destruct (ph_u_end _ _ _ _); [|discriminate]. cbn [rbind] in Ecs. apply Ok_inj in Ecs. subst cs.
    destruct (PwInterpProofs.mapm_ok _ _ _ E1) as [L1 H1]. change (length (seq 0 (length ns))) with 2%nat in L1, H1.
    destruct (PwInterpProofs.mapm_ok _ _ _ E2) as [L2 _]. change (length (seq 0 (length ns))) with 2%nat in L2.
    destruct c1 as [|d1 [|d2 [|]]]; try discriminate.
    pose proof (H1 0%nat 0%nat [] ltac:(lia)) as A1. pose proof (H1 1%nat 0%nat [] ltac:(lia)) as A2. cbn [nth seq length ns mass_problem ph_kind] in A1, A2.
    assert (LB : forall g d, td_segment rr (mass_problem Ph_td s) s0 g = Ok d -> (10 <= length d)%nat).
    { intros g d. unfold td_segment. destruct (matrix_D_nu _ _); [|discriminate]. cbn [rbind]. destruct (matrix_L _ _ _ _); [|discriminate]. cbn [rbind].
      intros E. apply Ok_inj in E. subst d. rewrite !app_length. cbn [mass_problem ph_order Nat.add seq flat_map app length]. lia. }
    pose proof (LB _ _ A1). pose proof (LB _ _ A2). rewrite !app_length. cbn [concat]. rewrite !app_length. lia.
Qed.

Theorem mass_bu s : In s bt_schemes -> exists t cs, ph_t_arr rr (mass_problem Ph_bu s) knots ns = Ok t /\
  ph_apply_scheme rr lg mass (mass_problem Ph_bu s) knots ns (mass_motion rr ns t) = Ok cs /\ satisfied cs.
Proof.
  intros H. destruct (mass_times Ph_bu s (bt_all_schemes s H)) as (t & Et & L).
  destruct (mass_shapes t L) as (S1 & S2 & S3).
  assert (B : forall j, (j <= 2)%nat -> (knot_row ns j < length t)%nat) by (intros j Hj; rewrite L; now apply knot_row_lt).
  destruct (bu_join rr OK lg LGOK mass (mass_problem Ph_bu s) knots ns (mass_motion rr ns t) 1 t eq_refl ltac:(simpl; lra) mass_knots (mass_enough s)
     ltac:(simpl; lia) ltac:(simpl; lia) S1 S2 S3 Et eq_refl H) as (cs & Ecs & I).
  { constructor; [|constructor; [|constructor]]; intros _; lia. }
  { exact mass_chain. }
  exists t, cs. split; [exact Et|]. split; [exact Ecs|].
  apply I. split; [|now apply mass_controls].
  exists [[[0; 0; 1]]; [[0; 0; 1]]]. split; [reflexivity|]. intros r Hr. change (length ns) with 2%nat in Hr.
  assert (EP : nth r [[[0; 0; 1]]; [[0; 0; 1]]] [] = [[0; 0; 1]]) by (destruct r as [|[|r]]; [reflexivity|reflexivity|lia]).
  rewrite EP. cbn [ph_order ph_n_q mass_problem]. rewrite !full_rate_parabola.
  split; [apply mass_segment; auto; destruct r as [|[|r]]; simpl; lia|].
  split; [|intros _]; cbn [hv_x_d mass_motion]; apply (map_row (fun a => [2 * a; 2])), B; lia.
Qed.

Lemma nodes_of_ge s N : In s all_schemes -> ~ In s lobatto_schemes -> (2 <= N)%nat -> (3 <= nodes_of s N)%nat.
Proof.
  intros H NL K. scheme_cases H; try (exfalso; apply NL; cbv; tauto);
    unfold nodes_of; match goal with |- context [(b2n ?a + (N - b2n ?b - b2n ?c) + b2n ?d)%nat] =>
      let a' := eval cbv in (b2n a) in let b' := eval cbv in (b2n b) in let c' := eval cbv in (b2n c) in let d' := eval cbv in (b2n d) in
      change (b2n a) with a'; change (b2n b) with b'; change (b2n c) with c'; change (b2n d) with d' end; lia.
Qed.
Theorem mass_ps s : In s all_schemes -> s <> "D2"%string -> ~ In s lobatto_schemes ->
  exists t cs, ph_t_arr rr (mass_problem Ph_ps s) knots ns = Ok t /\
  ph_apply_scheme rr lg mass (mass_problem Ph_ps s) knots ns (mass_motion rr ns t) = Ok cs /\ satisfied cs.
Proof.
  intros H ND NL. destruct (mass_times Ph_ps s H) as (t & Et & L).
  destruct (mass_shapes t L) as (S1 & S2 & S3).
  assert (B : forall j, (j <= 2)%nat -> (knot_row ns j < length t)%nat) by (intros j Hj; rewrite L; now apply knot_row_lt).
  destruct (ps_join_complete rr OK lg mass (mass_problem Ph_ps s) knots ns (mass_motion rr ns t) 1 t eq_refl ltac:(simpl; lra) mass_knots (mass_enough s)
     ltac:(simpl; lia) ltac:(simpl; lia) S1 S2 S3 Et eq_refl H ND ltac:(simpl; lia) (or_introl eq_refl)) as (cs & Ecs & I).
  exists t, cs. split; [exact Et|]. split; [exact Ecs|].
  apply (I [[[0; 0; 1]; [0; 2]]; [[0; 0; 1]; [0; 2]]]); [| |now apply mass_controls].
  - intros r Hr. change (length ns) with 2%nat in Hr.
    assert (EP : nth r [[[0; 0; 1]; [0; 2]]; [[0; 0; 1]; [0; 2]]] [] = [[0; 0; 1]; [0; 2]]) by (destruct r as [|[|r]]; [reflexivity|reflexivity|lia]).
    rewrite EP. cbn [ph_order ph_n_q ph_scheme mass_problem]. rewrite !(proj2 (state_parabola _)).
    split; [|split; cbn [hv_x_d mass_motion]; apply (map_row (fun a => [2 * a; 2])), B; lia].
    destruct (nodes_shape rr OK s (nth r ns 0%nat) H (nth_enough (mass_problem Ph_ps s) ns (mass_enough s) r Hr)) as (c & _ & _ & En & _).
    eexists. split; [exact En|].
    assert (N3 : (3 <= nodes_of s (nth r ns 0%nat))%nat).
    { apply nodes_of_ge; auto. destruct r as [|[|r]]; simpl; lia. }
    unfold segment_state_motion, state_motion_on. cbn [hv_x hv_x_d hv_u mass_motion]. rewrite !(proj1 (state_parabola _)).
    rewrite !(map_row (fun a => [a * a; 2 * a])) by (apply B; lia).
    split; [reflexivity|]. split; [constructor; [cbn [length]; lia|constructor; [cbn [length]; lia|constructor]]|]. split; [reflexivity|]. split; [reflexivity|].
    unfold seg_times. rewrite map_length, seq_length. intros i Hi. rewrite vnth_map_seq by exact Hi.
    assert (Bi : (point_row ns r i < length t)%nat) by (rewrite L; apply (point_row_bound knots ns eq_refl); [simpl; lia|exact Hi]).
    rewrite (proj1 (state_parabola _)), (proj2 (state_parabola _)). rewrite !map_row by exact Bi.
    split; [reflexivity|]. split; [reflexivity|].
    unfold mass, vnth. cbn [nth]. constructor; [ring|]. constructor; [ring|constructor].
  - intros k Hk. cbn [ph_n_q mass_problem hv_x hv_x_d mass_motion]. rewrite !map_row by (apply B; simpl in Hk; lia). reflexivity.
Qed.

(** A Jacobi scheme with dynamics of order 1: q' = u.  The values are those of
    q = t^2 at the times 0, 1, 2, but the times of the problem are 0, 4/3, 2. *)
Definition first_order (x x_d u lam : vec) : vec := [vnth x_d 0 - vnth u 0].
Definition jacobi_problem : ph_problem := {| ph_kind := Ph_ps; ph_scheme := "JGR"; ph_order := 1; ph_n_q := 1; ph_t_start := 0; ph_t_end := 2 |}.
Definition jacobi_values : ph_values :=
  {| hv_x := [[0]; [0]; [1]; [4]]; hv_x_d := [[0]; [0]; [2]; [4]]; hv_u := [[0]; [0]; [2]; [3]]; hv_lam := [[]; []]; hv_q_constr := [] |}.
Theorem jacobi_wrong_times : exists t cs, ph_t_arr rr jacobi_problem [] [2%nat] = Ok t /\
  ph_apply_scheme rr lg first_order jacobi_problem [] [2%nat] jacobi_values = Ok cs /\ satisfied cs /\ t = [0; 0; 4 / 3; 2] /\
  ~ exists P, segment_state_motion first_order 3 1 t [2%nat] (hv_x jacobi_values) (hv_x_d jacobi_values) (hv_u jacobi_values) (hv_lam jacobi_values) 0 P.
Proof.
  assert (HS : In "JGR"%string all_schemes) by (cbv; tauto).
  assert (HE1 : enough_points "JGR" 2) by (split; [lia|intros _; lia]).
  assert (HE : Forall (enough_points (ph_scheme jacobi_problem)) [2%nat]) by (constructor; [exact HE1|constructor]).
  assert (C1 : coll_points rr 2 "JGR" 1 = Ok [-1; 1 / 3]).
  { cbv [coll_points mem existsb String.eqb Ascii.eqb Bool.eqb orb]. now rewrite (proj1 (JGR_2 rr OK)). }
  assert (C2 : coll_points rr 2 "JGR" 2 = Ok [-1; 0]).
  { cbv [coll_points mem existsb String.eqb Ascii.eqb Bool.eqb orb]. now rewrite (proj2 (JGR_2 rr OK)). }
  assert (Et : ph_t_arr rr jacobi_problem [] [2%nat] = Ok [0; 0; 4 / 3; 2]).
  { unfold ph_t_arr, ph_t_col. cbn [length seq mapm nth jacobi_problem ph_scheme ph_order]. rewrite C1. cbn [rbind]. f_equal.
    cbn [flat_map seq length nth app tau_to_t_points map ph_t_knot_ext ph_t_start ph_t_end jacobi_problem]. unfold vnth. cbn [nth Nat.add].
    unfold tau_to_t. f_equal. f_equal; [field|]. f_equal. field. }
  assert (T : ph_t_start jacobi_problem < ph_t_end jacobi_problem) by (simpl; lra).
  assert (GK : good_knots (ph_t_start jacobi_problem) (ph_t_end jacobi_problem) []) by (split; [constructor|intros i j Hij; simpl in Hij; lia]).
  assert (SX : shaped (ph_n_arr [2%nat]) (ph_order jacobi_problem * ph_n_q jacobi_problem) (hv_x jacobi_values)) by (split; [reflexivity|repeat constructor]).
  assert (SD : shaped (ph_n_arr [2%nat]) (ph_order jacobi_problem * ph_n_q jacobi_problem) (hv_x_d jacobi_values)) by (split; [reflexivity|repeat constructor]).
  assert (SU : shaped (ph_n_arr [2%nat]) 1 (hv_u jacobi_values)) by (split; [reflexivity|repeat constructor]).
  destruct (apply_iff jacobi_problem [] [2%nat] jacobi_values 1 eq_refl T GK SX SD SU rr OK HS HE _ Et lg first_order (0, 1)%nat
     (fun k => ps_segment rr jacobi_problem (ph_seg jacobi_problem [] [2%nat] jacobi_values k)) (fun _ => True)) as (cs & Ecs & I).
  { reflexivity. }
  { reflexivity. }
  { intros s Hs. destruct s; [|simpl in Hs; lia].
    set (g := ph_seg jacobi_problem [] [2%nat] jacobi_values 0).
    destruct (ps_segment_iff rr OK first_order jacobi_problem g 0 2 (fun k => mrow (point_number [2%nat] 0 k) (hv_lam jacobi_values))
       HS ltac:(discriminate) HE1 (le_n 1) (le_n 1)) as (col & n & cs & Ec & Lc & En & Ecs & Iff).
    { intros _. simpl. lia. }
    { exact (seg_good jacobi_problem [] [2%nat] jacobi_values 1 eq_refl T GK SX SD SU 0 (le_n 1)). }
    exists cs. split; [exact Ecs|]. split; [trivial|]. intros _. apply Iff.
    change (coll_points rr 2 "JGR" 2 = Ok col) in Ec. rewrite C2 in Ec. apply Ok_inj in Ec. subst col.
    change (n_col_to_n_nodes "JGR" 2 = Ok n) in En. cbv in En. injection En as <-.
    assert (ST : forall a, state_at [[0; 0; 1]] a = [a * a]) by (intros a; unfold state_at; cbn [map peval]; f_equal; ring).
    assert (RT : forall a, rate_at [[0; 0; 1]] a = [2 * a]).
    { intros a. unfold rate_at. cbn [map]. rewrite Derive_peval. cbn. f_equal. ring. }
    exists [[0; 0; 1]]. split.
    - split; [reflexivity|]. split; [constructor; [simpl; lia|constructor]|]. rewrite !ST. cbn [sg_xs sg_xe g ph_seg].
      split; [cbv; f_equal; ring|]. split; [change [2 * 2] with [2 * 2]; cbn; f_equal; ring|].
      cbn [length tau_to_t_points map]. intros k Hk. rewrite ST, RT.
      assert (E0 : tau_to_t (-1) 0 2 = 0) by (unfold tau_to_t; field). assert (E1 : tau_to_t 0 0 2 = 1) by (unfold tau_to_t; field).
      rewrite E0, E1. destruct k as [|[|k]]; [| |lia]; unfold first_order, vnth, mrow; cbn.
      + split; [f_equal; ring|]. split; [f_equal; ring|]. constructor; [ring|constructor].
      + split; [f_equal; ring|]. split; [f_equal; ring|]. constructor; [ring|constructor].
    - unfold knot_rates. cbv zeta. rewrite !RT. cbn [jacobi_problem ph_scheme ph_n_q].
      change (nstarts "JGR") with true. change (nends "JGR") with true.
      split; [intros _ _; cbn; f_equal; ring|]. split; [intros _ _; cbn; f_equal; ring|].
      split; [discriminate|]. split; [discriminate|].
      intros K. exfalso. cbv [second_order_schemes In] in K. repeat (destruct K as [K|K]; [discriminate|]). destruct K. }
  exists [0; 0; 4 / 3; 2], cs. split; [exact Et|]. split; [exact Ecs|]. split; [|split; [reflexivity|]].
  - apply I. split; [trivial|].
    assert (EX : forall tq v, v = [3 / 2 * tq] -> extrapolates (seg_times [0; 0; 4 / 3; 2] [2%nat] 0) (seg_part (hv_u jacobi_values) [2%nat] 0) 1 tq v).
    { intros tq v ->. exists [[0; 3 / 2]]. split; [reflexivity|]. split.
      - intros j Hj. destruct j; [|simpl in Hj; lia]. split; [simpl; lia|].
        intros [|[|i]] Hi; [| |simpl in Hi; lia]; unfold vnth; cbn; field.
      - unfold state_at. cbn [map peval]. f_equal. ring. }
    split; [|apply EX; cbn; f_equal; field]. intros s Hs. destruct s; [|simpl in Hs; lia]. apply EX. cbn. f_equal. ring.
  - intros (P & LP & FP & X0 & X1 & H). destruct P as [|c [|]]; try discriminate. inversion FP as [|? ? LC _]; subst.
    destruct (H 0%nat ltac:(simpl; lia)) as (_ & R0 & _). destruct (H 1%nat ltac:(simpl; lia)) as (A1 & _ & _).
    unfold state_at, rate_at in *. cbn [map] in *. injection X0 as X0. injection X1 as X1. injection R0 as R0. injection A1 as A1.
    rewrite Derive_peval in R0. unfold vnth in *. cbn [nth seg_times map seq point_row knot_row list_sum firstn fold_right Nat.add] in *.
    cbn in X0, X1, R0, A1.
    destruct c as [|c0 [|c1 [|c2 [|]]]]; cbn in *; try lia; nra.
Qed.
End Mass.
