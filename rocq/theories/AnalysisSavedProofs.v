(** The interpolation of a solved problem with several segments. *)
From Coq Require Import String.
From Coquelicot Require Import Coquelicot.
From Verif Require Import Prelude PreludeFacts Poly PolyFacts PolyInterp Mat MatFacts PwModel PwFacts PwInterpModel
  PsModel JacobiFacts PsSpec PsPointsProofs PsBaryProofs PsNodesProofs PsProblemProofs PsApplyProofs PsInterpProofs PsMoreProofs
  UtilModel UtilSpec BuTdModel BuTdSpec BuTdFacts BuTdProofs BuTdApplyProofs BuTdInterpProofs
  PhModel PhSpec PhProofs PhSegProofs PhBtProofs PhMoreProofs PhJoinProofs
  AnalysisModel AnalysisSpec AnalysisProofs AnalysisPhProofs AnalysisSegProofs.
Open Scope R_scope.
Open Scope vec_scope.
Open Scope list_scope.

Lemma pyget_0 {A} (a : A) l : pyget (a :: l) 0%Z = Ok a.
Proof.
  unfold pyget. cbn [Z.ltb Z.compare]. replace (Z.of_nat (length (a :: l)) <=? 0)%Z with false; [reflexivity|].
  symmetry. apply Z.leb_gt. cbn [length]. lia.
Qed.
Lemma pyget_last {A} (a : A) l : pyget (l ++ [a]) (-1)%Z = Ok a.
Proof.
  unfold pyget. rewrite app_length. cbn [length Z.ltb Z.compare].
  replace (Z.of_nat (length l + 1) + -1)%Z with (Z.of_nat (length l)) by lia.
  replace (Z.of_nat (length l) <? 0)%Z with false by (symmetry; apply Z.ltb_ge; lia).
  replace (Z.of_nat (length l + 1) <=? Z.of_nat (length l))%Z with false by (symmetry; apply Z.leb_gt; lia).
  cbn [orb]. rewrite Nat2Z.id, nth_error_app2, Nat.sub_diag by lia. reflexivity.
Qed.
Lemma pyget_nat {A} (l : list A) i d : (i < length l)%nat -> pyget l (Z.of_nat i) = Ok (nth i l d).
Proof.
  intros H. unfold pyget. replace (Z.of_nat i <? 0)%Z with false by (symmetry; apply Z.ltb_ge; lia).
  replace (Z.of_nat i <? 0)%Z with false by (symmetry; apply Z.ltb_ge; lia).
  replace (Z.of_nat (length l) <=? Z.of_nat i)%Z with false by (symmetry; apply Z.leb_gt; lia).
  cbn [orb]. rewrite Nat2Z.id. now rewrite (nth_error_nth' l i d H).
Qed.

Lemma rows_total (f : R -> Res row) (Q : R -> row -> Prop) : (forall t, exists d, f t = Ok d /\ Q t d) -> forall l,
  exists ds, mapm f l = Ok ds /\ length ds = length l /\ forall i, (i < length l)%nat -> Q (vnth l i) (nth i ds []).
Proof.
  intros H. induction l as [|a l IH].
  - exists []. split; [reflexivity|]. split; [reflexivity|]. intros i Hi. cbn in Hi. lia.
  - destruct (H a) as (d & E & Qd), IH as (ds & Es & L & Qs). exists (d :: ds). cbn [mapm]. rewrite E. cbn [rbind]. rewrite Es.
    split; [reflexivity|]. split; [cbn [length]; now rewrite L|]. intros [|i] Hi; [exact Qd|]. apply Qs. cbn [length] in Hi. lia.
Qed.

Lemma ext_left s : In s all_schemes -> ~ In s half_open -> mem s (gauss_like ++ gauss_inv ++ radau_inv) = negb (starts s).
Proof. intros H N. scheme_cases H; rewrite <- ?H; try reflexivity; exfalso; apply N; cbv; tauto. Qed.
Lemma ext_right s : In s all_schemes -> ~ In s half_open -> mem s (gauss_like ++ gauss_inv ++ radau_like) = negb (ends s).
Proof. intros H N. scheme_cases H; rewrite <- ?H; try reflexivity; exfalso; apply N; cbv; tauto. Qed.
Lemma bt_closed s : In s bt_schemes -> ~ In s half_open.
Proof. intros H. bt_cases H; cbv; intuition discriminate. Qed.

Lemma slice_one (l : vec) i : (i < length l)%nat -> slice i (i + 1) l = [vnth l i].
Proof.
  revert i. induction l as [|a l IH]; intros i Hi; [cbn in Hi; lia|]. destruct i as [|i].
  - unfold slice. cbn. reflexivity.
  - cbn [length] in Hi. transitivity (slice i (i + 1) l); [unfold slice; cbn [skipn]; f_equal; lia|]. rewrite IH by lia. reflexivity.
Qed.

Section Saved.
Variable rr : list R -> list R.
Hypothesis OK : real_roots_ok rr.
Variable lg : nat -> vec * vec.
Variable u_other : string -> R -> Res vec.
Variable hermite : list R -> list vec -> list vec -> R -> vec.
Variables (p : ph_problem) (knots : vec) (ns : list nat) (w : ph_values) (nu : nat) (t : vec).
Hypothesis LK : length ns = (length knots + 1)%nat.
Hypothesis T : ph_t_start p < ph_t_end p.
Hypothesis GK : good_knots (ph_t_start p) (ph_t_end p) knots.
Hypothesis HS : In (ph_scheme p) all_schemes.
Hypothesis HC : ~ In (ph_scheme p) half_open.
Hypothesis HE : Forall (enough_points (ph_scheme p)) ns.
Hypothesis HO : (1 <= ph_order p)%nat.
Hypothesis HQ : (1 <= ph_n_q p)%nat.
Hypothesis SX : shaped (ph_n_arr ns) (ph_order p * ph_n_q p) (hv_x w).
Hypothesis SD : shaped (ph_n_arr ns) (ph_order p * ph_n_q p) (hv_x_d w).
Hypothesis SU : shaped (ph_n_arr ns) nu (hv_u w).
Hypothesis Ht : ph_t_arr rr p knots ns = Ok t.
Notation tk := (knot_times (ph_t_start p) (ph_t_end p) knots).
Notation L := (length ns).

Definition seg_x (X : mat) (s : nat) : mat :=
  assemble (starts (ph_scheme p)) (ends (ph_scheme p)) (mrow (knot_row ns s) X) (seg_part X ns s) (mrow (knot_row ns (s + 1)) X).

(** What is saved. *)
Lemma saved_ok : exists r, saved rr p knots ns w = Ok r /\ h_mode r = ph_kind p /\ h_n_segments r = L /\ h_x r = hv_x w /\ h_t r = t /\
  h_t_knot r = knots /\
  forall s, (s < L)%nat -> exists c, inner_set (nth s ns 0%nat - b2n (starts (ph_scheme p)) - b2n (ends (ph_scheme p))) c /\
    coll_points rr (nth s ns 0%nat) (ph_scheme p) (ph_order p) = Ok (with_ends (starts (ph_scheme p)) (ends (ph_scheme p)) c) /\
    length (with_ends (starts (ph_scheme p)) (ends (ph_scheme p)) c) = nth s ns 0%nat /\
    seg_times t ns s = tau_to_t_points (with_ends (starts (ph_scheme p)) (ends (ph_scheme p)) c) (vnth tk s) (vnth tk (s + 1)) /\
    sub_problem r s =
      {| r_scheme := ph_scheme p; r_solve_order := ph_order p;
         r_x := seg_x (hv_x w) s; r_x_d := seg_x (hv_x_d w) s; r_u := seg_part (hv_u w) ns s;
         r_t := tau_to_t_points (with_ends true true c) (vnth tk s) (vnth tk (s + 1));
         r_kind := match ph_kind p with
           | Ph_td => TopDown (nth s (hv_q_constr w) [])
           | Ph_bu => BottomUp
           | Ph_ps =>
               let idx : slice_idx := (1 - b2n (nstarts (ph_scheme p)), 1 - b2n (nends (ph_scheme p)))%nat in
               let xx := seg_x (hv_x w) s in
               Pseudo (take idx (mcols 0 (ph_n_q p) xx))
                 (take idx (if (ph_n_q p =? mwidth xx)%nat then seg_x (hv_x_d w) s else mcols (ph_n_q p) (ph_n_q p * 2) xx))
                 (take idx xx)
           end |}.
Proof.
  destruct (ph_t_col_ok rr OK p knots ns HS HE) as (taus & LT & Hc & Ecol).
  unfold saved. rewrite Ht, Ecol. cbn [rbind]. eexists. split; [reflexivity|].
  cbn [h_mode h_n_segments h_x h_t h_t_knot].
  do 5 (split; [reflexivity|]).
  intros s Hs. destruct (Hc s Hs) as (Ec & Lc & c & IC & Et). exists c. rewrite <- Et.
  split; [exact IC|]. split; [exact Ec|]. split; [exact Lc|].
  split.
  { destruct (arr_times p knots ns LK rr OK HS HE t Ht) as (_ & _ & Hseg). destruct (Hseg s Hs) as (col & Ec' & _ & _ & Es).
    rewrite Ec in Ec'. assert (col = nth s taus []) by congruence. subst col. exact Es. }
  unfold sub_problem. cbn [h_mode h_scheme h_solve_order h_n_q h_x_col h_x_d_col h_u_col h_t_col h_x_knot_ext h_x_d_knot_ext h_t_knot_ext h_q_constr].
  rewrite (ext_left _ HS HC), (ext_right _ HS HC).
  assert (LX := shaped_length _ _ _ SX). assert (LD := shaped_length _ _ _ SD). assert (LU := shaped_length _ _ _ SU).
  rewrite !(seg_part_eq ns) by auto.
  rewrite !ph_knot_ext_row by (auto; lia).
  rewrite knot_times_eq.
  assert (LTK := tk_length p knots ns LK).
  rewrite !slice_one by lia.
  replace (slice (s + 1) (s + 2) tk) with [vnth tk (s + 1)] by (rewrite <- slice_one by lia; f_equal; lia).
  rewrite (nth_map' _ _ _ 0%nat) by now rewrite seq_length. rewrite seq_nth by exact Hs. cbn [Nat.add].
  rewrite Et. unfold seg_x, assemble.
  assert (T0 : forall a b, tau_to_t (-1) a b = a) by (intros; unfold tau_to_t; field).
  assert (T1 : forall a b, tau_to_t 1 a b = b) by (intros; unfold tau_to_t; field).
  assert (NIDX : (if mem (ph_scheme p) gauss_like then (0, 1)%nat else if mem (ph_scheme p) gauss_inv then (1, 0)%nat else (0, 0)%nat : slice_idx)
    = (1 - b2n (nstarts (ph_scheme p)), 1 - b2n (nends (ph_scheme p)))%nat).
  { clear - HS. unfold nstarts, nends. revert HS. generalize (ph_scheme p). intros s H. scheme_cases H; rewrite <- ?H; reflexivity. }
  unfold tau_to_t_points, with_ends.
  destruct (starts (ph_scheme p)), (ends (ph_scheme p)); cbn [negb app]; rewrite ?map_app; cbn [map]; rewrite ?map_app; cbn [map]; rewrite ?T0, ?T1, ?app_nil_r;
    (f_equal; destruct (ph_kind p); try reflexivity; unfold slice_idx in *; rewrite NIDX; reflexivity).
Qed.
End Saved.
