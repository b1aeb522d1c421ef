(** Controls at the ends of bottom-up and top-down problems, and what fails. *)
From Coq Require Import String.
From Coquelicot Require Import Coquelicot.
From Verif Require Import Prelude PreludeFacts Poly PolyFacts PolyInterp Mat MatFacts PwModel PwFacts
  PwInterpModel PsModel JacobiFacts PsSpec PsPointsProofs PsBaryProofs PsNodesProofs PsProblemProofs PsApplyProofs PsInterpProofs
  PsMoreProofs PsFinalProofs UtilModel UtilSpec GaussFacts UtilProofs BuTdModel BuTdSpec BuTdFacts BuTdProofs BuTdApplyProofs BuTdInterpProofs.
Open Scope R_scope.
Open Scope vec_scope.
Open Scope list_scope.

Section More.
Variable rr : list R -> list R.
Hypothesis OK : real_roots_ok rr.

Lemma bt_starts s : In s bt_schemes -> mem s (radau_like ++ lobato_like) = starts s.
Proof. intros H. bt_cases H; reflexivity. Qed.
Lemma bt_ends s : In s bt_schemes -> mem s (radau_inv ++ lobato_like) = ends s.
Proof. intros H. bt_cases H; reflexivity. Qed.

(** u_s, u_e and u_like_x: the control polynomial at the two ends and at all
    the state times. *)
Lemma bt_u_ends p cl u m U : bt_valid p ->
  coll_points rr (ps_n_coll p) (ps_scheme p) (ps_order p) = Ok cl -> shaped (ps_n_coll p) m u -> length U = m ->
  traj_through (t_of p cl) u U ->
  bt_u_s rr p u = Ok (state_at U (ps_t_start p)) /\ bt_u_e rr p u = Ok (state_at U (ps_t_end p)) /\
  exists tx ul, TD_construction_points rr (ps_n_coll p) (ps_scheme p) (ps_order p) = Ok tx /\
    bt_u_like_x rr p u = Ok ul /\ length ul = length tx /\
    forall i, (i < length tx)%nat -> mrow i ul = state_at U (vnth (t_of p tx) i).
Proof.
  intros (H & E & O & Q & T) Ec Su LU TU.
  destruct (bt_points rr OK (ps_scheme p) (ps_n_coll p) (ps_order p) H E) as (c & S & _ & Ec' & _ & Ex & _ & Lc).
  rewrite Ec in Ec'. injection Ec' as ->.
  set (s := ps_scheme p) in *. set (n := ps_n_coll p) in *.
  assert (Pn : (0 < n)%nat) by (destruct E; lia).
  assert (Su' := Su). rewrite <- Lc in Su', Pn.
  assert (H' := bt_all s H).
  assert (US : bt_u_s rr p u = Ok (state_at U (ps_t_start p))).
  { unfold bt_u_s. fold s n. rewrite bt_starts by exact H. destruct (starts s) eqn:St.
    + f_equal. eapply mrow_first_state; [reflexivity|exact Su'|exact LU|exact TU].
    + destruct (extreme_u_start rr OK s n (ps_order p) H' E) as (ts & f & Et & Ef & F).
      rewrite Ec, ?St in Et. injection Et as <-. rewrite Ef. cbn [rbind].
      rewrite (run_cols_ok _ (ps_t_start p) (ps_t_end p) Pn u m U _ f Su' LU TU F). now rewrite tau_start. }
  assert (UE : bt_u_e rr p u = Ok (state_at U (ps_t_end p))).
  { unfold bt_u_e. fold s n. rewrite bt_ends by exact H. destruct (ends s) eqn:St.
    + f_equal. eapply mrow_last_state; [reflexivity|exact Su'|exact LU|exact TU].
    + destruct (extreme_u_end rr OK s n (ps_order p) H' E) as (ts & f & Et & Ef & F).
      rewrite Ec, ?St in Et. injection Et as <-. rewrite Ef. cbn [rbind].
      rewrite (run_cols_ok _ (ps_t_start p) (ps_t_end p) Pn u m U _ f Su' LU TU F). now rewrite tau_end. }
  split; [exact US|]. split; [exact UE|].
  set (l := if starts s then u else [state_at U (ps_t_start p)] ++ u).
  exists (with_ends true true c), (if ends s then l else l ++ [state_at U (ps_t_end p)]).
  split; [exact Ex|]. split.
  { unfold bt_u_like_x. rewrite US, UE. cbn [rbind]. fold s. rewrite bt_starts, bt_ends by exact H. reflexivity. }
  assert (LX : length (with_ends true true c) = (2 + length c)%nat) by (rewrite with_ends_length; simpl; lia).
  assert (LC : length u = (b2n (starts s) + length c + b2n (ends s))%nat) by (rewrite (shaped_length _ _ _ Su'); apply with_ends_length).
  assert (LL : length l = (1 - b2n (starts s) + length u)%nat) by (unfold l; destruct (starts s); reflexivity).
  split.
  { rewrite LX. destruct (ends s) eqn:En; [|rewrite app_length]; rewrite LL, LC; destruct (starts s); simpl; lia. }
  intros i Hi. rewrite LX in Hi.
  destruct (index_split (starts s) (ends s) (length c) i Hi) as [(i' & Hi' & ->)|[[-> B]|[-> B]]].
  - destruct (times_coll (starts s) (ends s) c (ps_t_start p) (ps_t_end p) i' Hi') as [_ TT].
    unfold t_of. rewrite <- TT.
    rewrite <- (traj_row _ u _ m U i' Su'); auto.
    2:{ now rewrite times_length. }
    2:{ now rewrite with_ends_length. }
    assert (RL : mrow (1 - b2n (starts s) + i') l = mrow i' u) by (unfold l; destruct (starts s); reflexivity).
    destruct (ends s); [exact RL|].
    unfold mrow in *. rewrite app_nth1; [exact RL|]. rewrite LL, LC. exact (proj1 (Nat.add_lt_mono_l _ _ _) Hi').
  - unfold t_of. rewrite vnth_times, with_ends_first, tau_start by lia. unfold l, mrow. rewrite B.
    destruct (ends s); reflexivity.
  - unfold t_of. rewrite vnth_times by lia.
    replace (1 + length c)%nat with (length (with_ends true true c) - 1)%nat at 2 by lia.
    rewrite with_ends_last, tau_end. rewrite B. unfold mrow.
    rewrite app_nth2 by (rewrite LL, LC, B; destruct (starts s); simpl; lia).
    replace (1 + length c - length l)%nat with 0%nat by (rewrite LL, LC, B; destruct (starts s); simpl; lia). reflexivity.
Qed.

(** A bottom-up problem with one Gauss point cannot be set up. *)
Variable lg : nat -> vec * vec.
Hypothesis LGOK : leggauss_ok lg.
Lemma bu_single_fails dyn p w : In (ps_scheme p) gauss_schemes -> ps_n_coll p = 1%nat -> (1 <= ps_order p)%nat ->
  bu_apply_scheme rr lg dyn p w = Err ValueError.
Proof.
  intros G N1 O.
  assert (H : In (ps_scheme p) bt_schemes) by (destruct G as [<-|[<-|[<-|[]]]]; cbv; tauto).
  assert (E : enough_points (ps_scheme p) 1).
  { split; [lia|]. intros I. exfalso. revert I G. generalize (ps_scheme p). intros s0 I G. clear - G I. destruct G as [<-|[<-|[<-|[]]]]; cbv in I; intuition discriminate. }
  destruct (bt_points rr OK (ps_scheme p) 1 (ps_order p) H E) as (c & _ & Ec & _ & Ex & _ & Ei & _).
  destruct (Extreme_Matrix_ok rr OK (ps_scheme p) 1 "start" (-1) (ps_order p) H E (or_introl eq_refl)) as (? & A1 & _ & _ & _ & EA1 & _).
  destruct (Extreme_Matrix_ok rr OK (ps_scheme p) 1 "end" 1 (ps_order p) H E (or_intror (or_introl eq_refl))) as (? & A2 & _ & _ & _ & EA2 & _).
  assert (IS := fun P h => Integration_Matrix_single rr OK lg LGOK (ps_scheme p) P h (ps_order p) G).
  unfold bu_apply_scheme, bu_opti_setup. rewrite N1, Ei, Ex, Ec. cbn [rbind bset_coll]. rewrite EA1, EA2. cbn [rbind].
  assert (M1 : mem (ps_scheme p) (gauss_like ++ radau_inv) = true) by (clear - G; destruct G as [<-|[<-|[<-|[]]]]; reflexivity).
  assert (M2 : mem (ps_scheme p) (gauss_like ++ radau_like) = true) by (clear - G; destruct G as [<-|[<-|[<-|[]]]]; reflexivity).
  rewrite M1, M2. cbn [rbind].
  destruct (ps_order p) as [|o] eqn:EO; [lia|]. cbn [seq mapm]. rewrite IS by lia. reflexivity.
Qed.

(** The bottom-up interpolation of a Jacobi scheme of order 1 uses the points
    of order 2: the rate at the final time is not the stored one. *)
Definition ex_bu_jacobi : ps_problem := Build_ps_problem "JGR" 2 1 1 (-1) 1.
Lemma bu_jacobi_wrong :
  let xx := [[1 / 2]; [1 / 18]; [1 / 2]] in let xd := [[-1]; [1 / 3]; [1]] in
  let w := Build_ps_values xx xd [[-1]; [1 / 3]] [[]; []] in
  exists cs x u, bu_apply_scheme rr lg (fun x x_d u _ => x_d -v u) ex_bu_jacobi w = Ok cs /\ satisfied cs /\
    interpolations_BU_pseudospectral rr lg xx xd (pv_u w) "JGR" 1 (-1) 1 1 "pol" "pol" 1 = Ok (x, [5 / 3], u).
Proof.
  intros xx xd w.
  assert (H : In "JGR"%string bt_schemes) by (cbv; tauto).
  assert (E : enough_points "JGR" 2) by (split; intros; lia).
  assert (C1 : BU_coll_points rr 2 "JGR" 1 = Ok [-1; 1 / 3]).
  { rewrite BU_coll_points_eq by exact H. change (coll_points rr 2 "JGR" 1) with (Ok (JGR rr 2 1)). now rewrite (proj1 (JGR_2 rr OK)). }
  assert (C2 : BU_coll_points rr 2 "JGR" 2 = Ok [-1; 0]).
  { rewrite BU_coll_points_eq by exact H. change (coll_points rr 2 "JGR" 2) with (Ok (JGR rr 2 2)). now rewrite (proj2 (JGR_2 rr OK)). }
  assert (X1 : BU_construction_points rr 2 "JGR" 1 = Ok [1 / 3; 1]).
  { unfold BU_construction_points. rewrite C1. reflexivity. }
  assert (PT : forall l t, tau_to_t_points l (-1) 1 = l /\ tau_to_t t (-1) 1 = t).
  { intros l t. split; [|unfold tau_to_t; field]. unfold tau_to_t_points. rewrite <- (map_id l) at 2. apply map_ext. intros a. unfold tau_to_t. field. }
  assert (V : bt_valid ex_bu_jacobi) by (repeat split; try exact H; simpl; try lia; try lra).
  destruct (bu_apply rr OK lg LGOK (fun x x_d u _ => x_d -v u) ex_bu_jacobi w V) as (st & cs & ES & EI & ET & L1 & L2 & EA & SA).
  { intros _. simpl. lia. }
  { intros x x_d u lam Lx _ _. destruct x as [|a [|? ?]]; try discriminate Lx; reflexivity. }
  assert (EST : st = Build_bt_setup 3 [-1; 1 / 3; 1] [-1; 1 / 3] (0, 1)%nat).
  { assert (A : bu_opti_setup rr ex_bu_jacobi = Ok (Build_bt_setup 3 [-1; 1 / 3; 1] [-1; 1 / 3] (0, 1)%nat)).
    { unfold bu_opti_setup. cbn [ps_scheme ps_n_coll ps_order ex_bu_jacobi].
      change (get_coll_indices "JGR") with (@Ok slice_idx (0, 1)%nat). cbn [rbind]. rewrite X1, C1. reflexivity. }
    rewrite A in ES. congruence. }
  subst st. cbn [bset_n_arr bset_tau bset_tau_col bset_coll] in SA.
  exists cs.
  assert (Sx : shaped 3 1 xx) by (split; [reflexivity|repeat constructor]).
  assert (Sd : shaped 3 1 xd) by (split; [reflexivity|repeat constructor]).
  (* the interpolation *)
  set (f := bary_poly_2d [-1; 0] [[-1]; [1 / 3]]).
  assert (F : forall t, f t = state_at [[1 / 3; 4 / 3]] t).
  { intros t. apply (bary_poly_2d_correct [-1; 0] [[-1]; [1 / 3]] 1).
    - repeat constructor; simpl; intros [A|[]] || intros []; lra.
    - simpl. lia.
    - split; [reflexivity|repeat constructor].
    - reflexivity.
    - intros [|j] Hj; [|simpl in Hj; lia]. split; [simpl; lia|].
      intros [|[|i]] Hi; [| |simpl in Hi; lia]; unfold mcol, vnth; cbn [map nth peval]; field. }
  destruct (poly_integral_2d_exact lg LGOK f [[1 / 3; 4 / 3]] 1 (-1) 1 [1 / 2]) as (G & EG & _ & PG); [lra|simpl; lia| |reflexivity|].
  { split; [repeat constructor; simpl; lia|exact F]. }
  exists (G 1), (bary_poly_2d [-1; 0] [[-1]; [1 / 3]] 1).
  split; [exact EA|]. split.
  - apply (SA Sx Sd). exists [[0; 0; 1 / 2]].
    unfold t_of. cbn [ps_t_start ps_t_end ex_bu_jacobi]. rewrite !(fun l => proj1 (PT l 0)).
    cbn [ps_n_coll ps_order ps_n_q ex_bu_jacobi pv_x pv_x_d pv_u pv_lam w].
    assert (R1 : forall t, rate_n_at 1 [[0; 0; 1 / 2]] t = [t]).
    { intros t. rewrite rate_n_eval. unfold pderiv_n, pderiv. simpl. f_equal. field. }
    assert (R0 : forall t, full_state 1 [[0; 0; 1 / 2]] t = [t * t / 2]).
    { intros t. unfold full_state. cbn [seq flat_map]. rewrite rate_n_eval. simpl. f_equal. field. }
    assert (RF : forall t, full_rate 1 [[0; 0; 1 / 2]] t = [t]).
    { intros t. unfold full_rate. cbn [seq flat_map]. now rewrite R1. }
    split; [reflexivity|]. split; [repeat constructor; simpl; lia|]. split; [|split; [|split]].
    + intros [|[|[|i]]] Hi; try (simpl in Hi; lia); rewrite R0; unfold w, xx, xd, vnth, mrow; cbn [nth pv_x pv_x_d pv_u pv_lam]; f_equal; field.
    + intros [|[|[|i]]] Hi; try (simpl in Hi; lia); rewrite R1; unfold w, xx, xd, vnth, mrow; cbn [nth pv_x pv_x_d pv_u pv_lam]; reflexivity.
    + intros i [|[|k]] Hi Hk; try (simpl in Hk; lia); rewrite RF; (destruct i as [|[|[|i]]]; [| | |simpl in Hi; lia]);
        unfold w, xx, xd, vnth, mrow; cbn [nth pv_x pv_x_d pv_u pv_lam]; intros A; try (exfalso; lra); reflexivity.
    + intros [|[|k]] Hk; try (simpl in Hk; lia); rewrite RF; unfold w, xx, xd, vnth, mrow; cbn [nth pv_x pv_x_d pv_u pv_lam]; repeat constructor; simpl; field.
  - clear - X1 C2 PT EG PG F.
    set (x0 := [1 / 2] : vec) in *. set (hc := [[-1]; [1 / 3]] : mat) in *.
    assert (Q1 : (length x0 / 1)%nat = 1%nat) by reflexivity.
    assert (Q2 : take (0%nat, 1%nat) (mlastcols 1 xd) = hc) by reflexivity.
    assert (Q3 : get_coll_indices "JGR" = Ok (0%nat, 1%nat)) by reflexivity.
    assert (Q4 : length hc = 2%nat) by reflexivity.
    unfold interpolations_BU_pseudospectral, Polynomial_interpolations_BU. change (strip "BU_" "JGR") with "JGR"%string.
    change (strip "BU_" "JGR") with "JGR"%string. change (mrow 0 xx) with x0.
    rewrite Q1, Q3. cbn [rbind]. rewrite Q2, Q4, X1. cbn [rbind]. change (mem "pol"%string ["pol"; "pol"]%string) with true. cbn match.
    rewrite C2. cbn [rbind]. rewrite (proj1 (PT [-1; 0] 0)). change (pv_u w) with hc. fold f.
    cbn [integrate_polys hd].
    match goal with |- context [poly_integral_2d lg f ?a ?b ?c ?d] => change (poly_integral_2d lg f a b c d) with (poly_integral_2d lg f 1 (-1) 1 x0) end.
    rewrite EG. cbn [rbind].
    change (("pol" =? "pol")%string) with true. cbn match. cbn [rbind].
    change (seq 0 (1 + 1)) with [0%nat; 1%nat]. cbn [flat_map nth app].
    assert (FV : f 1 = [5 / 3]) by (rewrite F; cbn [state_at map peval]; f_equal; field).
    rewrite FV, PG. reflexivity.
Qed.
End More.
