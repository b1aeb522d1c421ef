(** Times and structure of multi-segment problems (C39, C41), and the schemes
    whose segments are not what they should be (C40). *)
From Coq Require Import String.
From Coquelicot Require Import Coquelicot.
From Verif Require Import Prelude PreludeFacts Poly PolyFacts PolyInterp Mat MatFacts
  PwInterpModel PsModel JacobiFacts PsSpec PsPointsProofs PsBaryProofs PsNodesProofs PsProblemProofs PsApplyProofs PsInterpProofs PsMoreProofs
  UtilModel UtilSpec GaussFacts UtilProofs BuTdModel BuTdSpec BuTdFacts BuTdProofs BuTdApplyProofs PhModel PhSpec PhProofs PhSegProofs PhBtProofs PhPsProofs PhMoreProofs PhJoinProofs.
Open Scope R_scope.
Open Scope vec_scope.
Open Scope list_scope.

Lemma step_to_le (f : nat -> R) n : (forall r, (r < n)%nat -> f r <= f (r + 1)%nat) ->
  forall i j, (i <= j <= n)%nat -> f i <= f j.
Proof.
  intros H i j [H1 H2]. induction j as [|j IH]; [replace i with 0%nat by lia; lra|].
  destruct (Nat.eq_dec i (S j)) as [->|N]; [lra|]. pose proof (H j ltac:(lia)) as E. rewrite Nat.add_1_r in E.
  specialize (IH ltac:(lia) ltac:(lia)). lra.
Qed.
Lemma step_to_lt (f : nat -> R) n : (forall r, (r < n)%nat -> f r < f (r + 1)%nat) ->
  forall i j, (i < j <= n)%nat -> f i < f j.
Proof.
  intros H i j [H1 H2]. pose proof (H i ltac:(lia)).
  pose proof (step_to_le f n (fun r Hr => Rlt_le _ _ (H r Hr)) (i + 1) j ltac:(lia)). lra.
Qed.

Section Times.
Context (rr : list R -> list R).
Hypothesis OK : real_roots_ok rr.
Context (p : ph_problem) (knots : vec) (ns : list nat).
Hypothesis HS : In (ph_scheme p) all_schemes.
Hypothesis HE : Forall (enough_points (ph_scheme p)) ns.
Hypothesis LK : length ns = (length knots + 1)%nat.
Hypothesis T : ph_t_start p < ph_t_end p.
Hypothesis GK : good_knots (ph_t_start p) (ph_t_end p) knots.
Notation tk := (knot_times (ph_t_start p) (ph_t_end p) knots).

Theorem times_ordered : exists t, ph_t_arr rr p knots ns = Ok t /\ length t = ph_n_arr ns /\
  (forall k, (k <= length ns)%nat -> vnth t (knot_row ns k) = vnth tk k) /\
  (forall i j, (i <= j < ph_n_arr ns)%nat -> vnth t i <= vnth t j) /\
  (forall s i j, (s < length ns)%nat -> (i < j < nth s ns 0)%nat -> vnth t (point_row ns s i) < vnth t (point_row ns s j)) /\
  (~ In (ph_scheme p) schemes_with_start -> ~ In (ph_scheme p) schemes_with_end -> increasing t).
Proof.
  destruct (ph_t_arr_ok rr OK p knots ns HS HE) as (taus & t & L & Hc & Et & Lt & H1 & H2).
  pose proof (step_order rr p knots ns HE LK T GK t taus Hc H1 H2) as St.
  exists t. split; [exact Et|]. split; [exact Lt|]. split; [exact H2|]. split; [|split].
  - intros i j H. apply (step_to_le (vnth t) (ph_n_arr ns - 1)); [|lia]. intros r Hr. apply (St r Hr).
  - intros s i j Hs Hij. rewrite !H1 by (clear - Hs Hij; lia).
    destruct (Hc s Hs) as (Ec & Lc & c & Hcc & Ew).
    pose proof (with_ends_ok (starts (ph_scheme p)) (ends (ph_scheme p)) _ _ Hcc) as [_ [INC _]]. rewrite <- Ew in INC.
    apply tau_to_t_mono; [apply (tk_lt p knots ns LK T GK s Hs)|]. apply INC. rewrite Lc. exact Hij.
  - intros Ns Ne i j Hij. rewrite Lt in Hij. apply (step_to_lt (vnth t) (ph_n_arr ns - 1)); [|clear - Hij; lia].
    intros r Hr. destruct (St r Hr) as [[A|A] B]; [exact A|]. exfalso.
    destruct (B A) as [(s & _ & E & _)|(s & _ & E & _)]; apply mem_In in E; [now apply Ns|now apply Ne].
Qed.

(** Where the scheme has a point at an end of the segment, its time is there twice. *)
Theorem times_repeated t : ph_t_arr rr p knots ns = Ok t ->
  (In (ph_scheme p) schemes_with_start -> forall s, (s < length ns)%nat -> vnth t (point_row ns s 0) = vnth t (knot_row ns s)) /\
  (In (ph_scheme p) schemes_with_end -> forall s, (s < length ns)%nat -> vnth t (point_row ns s (nth s ns 0%nat - 1)) = vnth t (knot_row ns (s + 1))).
Proof.
  destruct (ph_t_arr_ok rr OK p knots ns HS HE) as (taus & t' & L & Hc & Et & Lt & H1 & H2).
  intros Ht. rewrite Et in Ht. apply Ok_inj in Ht. subst t'.
  assert (NP : forall s, (s < length ns)%nat -> (1 <= nth s ns 0)%nat) by (intros s Hs; apply (nth_enough p ns HE s Hs)).
  split; intros I s Hs; specialize (NP s Hs); destruct (Hc s Hs) as (Ec & Lc & c & Hcc & Ew); rewrite H1, H2 by (clear - NP Hs; lia).
  - apply mem_In in I. fold (starts (ph_scheme p)) in I. rewrite Ew, I.
    replace (vnth (with_ends true (ends (ph_scheme p)) c) 0) with (-1) by reflexivity. apply tau_start.
  - apply mem_In in I. fold (ends (ph_scheme p)) in I.
    assert (E : vnth (nth s taus []) (nth s ns 0%nat - 1) = 1); [|rewrite E; apply tau_end].
    rewrite <- Lc, Ew, I. apply with_ends_last.
Qed.
Theorem times_not_increasing t : ph_t_arr rr p knots ns = Ok t ->
  In (ph_scheme p) (schemes_with_start ++ schemes_with_end) -> ~ increasing t.
Proof.
  intros Ht I INC. destruct (times_repeated t Ht) as [A B].
  destruct (times_ordered) as (t' & Et & Lt & _). rewrite Ht in Et. apply Ok_inj in Et. subst t'.
  assert (P1 : (0 < length ns)%nat) by (clear - LK; lia).
  assert (N1 : (1 <= nth 0 ns 0)%nat) by apply (nth_enough p ns HE 0 P1).
  pose proof (knot_row_lt ns 1 P1) as K1. rewrite (knot_row_S ns 0 P1) in K1.
  apply in_app_iff in I. destruct I as [I|I].
  - specialize (A I 0%nat P1). pose proof (INC (knot_row ns 0) (point_row ns 0 0)) as H. rewrite Lt in H.
    assert (H' : (knot_row ns 0 < point_row ns 0 0 < ph_n_arr ns)%nat) by (unfold point_row in *; clear - K1 N1; lia).
    specialize (H H'). lra.
  - specialize (B I 0%nat P1). pose proof (INC (point_row ns 0 (nth 0 ns 0%nat - 1)) (knot_row ns (0 + 1))) as H. rewrite Lt in H.
    assert (H' : (point_row ns 0 (nth 0 ns 0%nat - 1) < knot_row ns (0 + 1) < ph_n_arr ns)%nat).
    { change (0 + 1)%nat with 1%nat. rewrite (knot_row_S ns 0 P1). unfold point_row in *. clear - K1 N1. lia. }
    specialize (H H'). lra.
Qed.
End Times.

(** Every array: the rows of the segments, of the knots and of the points. *)
Theorem arrays_partition ns X : (0 < length ns)%nat -> length X = ph_n_arr ns ->
  length (ph_col ns X) = length ns /\ length (ph_knot_ext ns X) = (length ns + 1)%nat /\ length (ph_like_u ns X) = list_sum ns /\
  (forall s, (s < length ns)%nat -> length (nth s (ph_col ns X) []) = nth s ns 0%nat /\
     forall i, (i < nth s ns 0)%nat -> mrow i (nth s (ph_col ns X) []) = mrow (point_row ns s i) X /\
       mrow (point_number ns s i) (ph_like_u ns X) = mrow (point_row ns s i) X) /\
  (forall k, (k <= length ns)%nat -> nth k (ph_knot_ext ns X) [] = mrow (knot_row ns k) X) /\
  [knot_row ns 0] ++ flat_map (fun s => map (point_row ns s) (seq 0 (nth s ns 0%nat)) ++ [knot_row ns (s + 1)]) (seq 0 (length ns))
    = seq 0 (length X).
Proof.
  intros P L. split; [apply ph_col_length|]. split; [now apply ph_knot_ext_length|]. split; [now apply like_u_length|].
  split; [|split].
  - intros s Hs. split; [now apply ph_col_seg_length|]. intros i Hi. split; [now apply ph_col_row|now apply like_u_row].
  - intros k Hk. now apply ph_knot_ext_row.
  - rewrite L. apply rows_partition.
Qed.

(** ** The check of the structure *)
Lemma forallb_map2_le l : forallb (fun c => c) (map2 all_le (butlastn 1 l) (skipn 1 l)) = true <->
  forall i, (i + 1 < length l)%nat -> vnth l i <= vnth l (i + 1).
Proof.
  unfold butlastn. cbn [Nat.eqb skipn].
  induction l as [|a l IH]; [simpl; split; [intros _ i H; lia|reflexivity]|].
  destruct l as [|b l]; [simpl; split; [intros _ i H; lia|reflexivity]|].
  change (skipn 1 (a :: b :: l)) with (b :: l).
  replace (firstn (length (a :: b :: l) - 1) (a :: b :: l)) with (a :: firstn (length (b :: l) - 1) (b :: l)).
  2:{ cbn [length]. replace (S (S (length l)) - 1)%nat with (S (length l)) by lia. cbn [firstn]. f_equal. f_equal. lia. }
  cbn [map2 forallb]. rewrite Bool.andb_true_iff. change (skipn 1 (b :: l)) with l in IH. rewrite IH.
  unfold all_le. destruct (Rle_dec a b) as [D|D].
  - split.
    + intros [_ H] [|i] Hi; [exact D|]. apply (H i). cbn [length] in *. lia.
    + intros H. split; [reflexivity|]. intros i Hi. apply (H (S i)). cbn [length] in *. lia.
  - split; [intros [E _]; discriminate|]. intros H. exfalso. apply D. apply (H 0%nat). cbn [length]. lia.
Qed.
Lemma Int_part_IZR z : Int_part (IZR z) = z.
Proof.
  destruct (base_Int_part (IZR z)) as [A B]. apply le_IZR in A.
  rewrite <- minus_IZR in B. assert (B' : IZR (-1) < IZR (Int_part (IZR z) - z)) by lra. apply lt_IZR in B'. lia.
Qed.
Lemma is_integer_true x : is_integer x = true <-> exists z, x = IZR z.
Proof.
  unfold is_integer. destruct (Req_EM_T (IZR (Int_part x)) x) as [E|E].
  - split; [intros _; exists (Int_part x); now symmetry|reflexivity].
  - split; [discriminate|]. intros [z ->]. exfalso. apply E. now rewrite Int_part_IZR.
Qed.
Theorem check_structure_ok t0 t1 knots ps z : check_structure t0 t1 knots ps = Ok z <->
  Forall (fun t => t0 < t < t1) knots /\ (forall i, (i + 1 < length knots)%nat -> vnth knots i <= vnth knots (i + 1)) /\
  length ps = (length knots + 1)%nat /\ ps = map IZR z.
Proof.
  unfold check_structure.
  assert (A : forallb (fun t => all_lt t0 t) knots = true <-> Forall (fun t => t0 < t) knots).
  { rewrite forallb_forall, Forall_forall. unfold all_lt. split; intros H x I; specialize (H x I); destruct (Rlt_dec t0 x); auto; discriminate. }
  assert (B : forallb (fun t => all_lt t t1) knots = true <-> Forall (fun t => t < t1) knots).
  { rewrite forallb_forall, Forall_forall. unfold all_lt. split; intros H x I; specialize (H x I); destruct (Rlt_dec x t1); auto; discriminate. }
  assert (C := forallb_map2_le knots).
  assert (D : forallb is_integer ps = true <-> exists l, ps = map IZR l).
  { rewrite forallb_forall. split.
    - intros H. exists (map Int_part ps). rewrite map_map. rewrite <- (map_id ps) at 1. apply map_ext_in. intros x I.
      destruct (proj1 (is_integer_true x) (H x I)) as [k ->]. now rewrite Int_part_IZR.
    - intros [l ->] x I. apply in_map_iff in I. destruct I as (k & <- & _). apply is_integer_true. eauto. }
  assert (AB : Forall (fun t => t0 < t < t1) knots <-> Forall (fun t => t0 < t) knots /\ Forall (fun t => t < t1) knots).
  { rewrite !Forall_forall. firstorder. }
  destruct (forallb (fun t => all_lt t0 t) knots); cbn [negb].
  2:{ split; [discriminate|]. intros (F & _). apply AB in F. destruct F as [F _]. apply A in F. discriminate. }
  destruct (forallb (fun t => all_lt t t1) knots); cbn [negb].
  2:{ split; [discriminate|]. intros (F & _). apply AB in F. destruct F as [_ F]. apply B in F. discriminate. }
  destruct (forallb (fun c => c) (map2 all_le (butlastn 1 knots) (skipn 1 knots))); cbn [negb].
  2:{ split; [discriminate|]. intros (_ & F & _). apply C in F. discriminate. }
  destruct (forallb is_integer ps); cbn [negb].
  2:{ split; [discriminate|]. intros (_ & _ & _ & F). assert (false = true) by (apply D; eauto). discriminate. }
  destruct (Nat.eqb_spec (length ps) (length knots + 1)) as [E|E]; cbn [negb].
  2:{ split; [discriminate|]. intros (_ & _ & F & _). now destruct E. }
  destruct (proj1 D eq_refl) as [l ->].
  split.
  - intros H. apply Ok_inj in H. subst z. split; [apply AB; split; [now apply A|now apply B]|]. split; [now apply C|]. split; [exact E|].
    f_equal. rewrite map_map. rewrite <- (map_id l) at 1. apply map_ext. intros k. now rewrite Int_part_IZR.
  - intros (_ & _ & _ & H). rewrite H. f_equal. rewrite map_map. rewrite <- (map_id z) at 2. apply map_ext. apply Int_part_IZR.
Qed.
Theorem check_structure_err t0 t1 knots ps e : check_structure t0 t1 knots ps = Err e -> e = AssertionError.
Proof.
  unfold check_structure. repeat match goal with |- context [if ?b then _ else _] => destruct b end; congruence.
Qed.
Theorem check_structure_total t0 t1 knots ps :
  ~ (Forall (fun t => t0 < t < t1) knots /\ (forall i, (i + 1 < length knots)%nat -> vnth knots i <= vnth knots (i + 1)) /\
     length ps = (length knots + 1)%nat /\ exists z, ps = map IZR z) ->
  check_structure t0 t1 knots ps = Err AssertionError.
Proof.
  intros H. destruct (check_structure t0 t1 knots ps) as [z|e] eqn:E.
  - exfalso. apply H. apply check_structure_ok in E. firstorder.
  - f_equal. eapply check_structure_err; eassumption.
Qed.

(** ** D2: nothing ties the knots to the segments *)
Definition mass (x x_d u lam : vec) : vec := [vnth x 1 - vnth x_d 0; vnth x_d 1 - vnth u 0].
Definition d2_problem : ph_problem := {| ph_kind := Ph_ps; ph_scheme := "D2"; ph_order := 2; ph_n_q := 1; ph_t_start := 0; ph_t_end := 2 |}.
Definition d2_values : ph_values :=
  {| hv_x := [[0; 0]; [0; 0]; [0; 0]; [5; 0]; [1; 0]; [1; 0]; [7; 0]]; hv_x_d := repeat [0; 0] 7; hv_u := repeat [0] 7;
     hv_lam := repeat [] 4; hv_q_constr := [] |}.
Section D2.
Context (rr : list R -> list R).
Hypothesis OK : real_roots_ok rr.
Variable lg : nat -> vec * vec.

Lemma d2_knots : good_knots 0 2 [1].
Proof.
  split; [constructor; [lra|constructor]|]. intros i j H. simpl in H. lia.
Qed.
Definition d2_seg (s : nat) (a : R) : ph_segment :=
   {| sg_n := 2; sg_h := 1; sg_first := (s =? 0)%nat; sg_last := (s =? 1)%nat; sg_x := [[a; 0]; [a; 0]]; sg_x_d := [[0; 0]; [0; 0]];
      sg_u := [[0]; [0]]; sg_xs := nth s [[0; 0]; [5; 0]] []; sg_xe := nth s [[5; 0]; [7; 0]] []; sg_xds := [0; 0]; sg_xde := [0; 0];
      sg_us := [0]; sg_q_constr := [] |}.
Lemma d2_segment s a : exists cs, ps_segment rr d2_problem (d2_seg s a) = Ok cs /\ satisfied cs.
Proof.
  unfold ps_segment. cbn [ph_scheme d2_problem sg_n d2_seg].
  change (n_col_to_n_nodes "D2" 2) with (Ok 2%nat). cbn [rbind].
  assert (HS : In "D2"%string all_schemes) by (cbv; tauto).
  assert (HE : enough_points "D2" 2) by (split; [lia|intros _; lia]).
  destruct (nodes_shape rr OK "D2" 2 HS HE) as (c & S & Ec & En & Ep).
  set (taus := with_ends (nstarts "D2") (nends "D2") c) in *.
  assert (Lt : length taus = 2%nat). { unfold taus. rewrite with_ends_length. destruct S as [-> _]. reflexivity. }
  assert (NDt : NoDup taus) by apply (with_ends_NoDup _ _ _ _ S).
  change (nodes_of "D2" 2) with 2%nat in Ep. rewrite (matrix_D_bary_ok rr 2 "D2" taus Ep Lt). cbn [rbind].
  assert (SX : shaped (length taus) 2 [[a; 0]; [a; 0]]) by (rewrite Lt; split; [reflexivity|repeat constructor]).
  assert (TX : traj_through (tau_to_t_points taus 0 1) [[a; 0]; [a; 0]] [[a]; [0]]).
  { intros [|[|j]] Hj; [| |simpl in Hj; lia]; (split; [rewrite times_length; simpl; lia|]); rewrite times_length, Lt; intros [|[|i]] Hi;
      try lia; unfold mcol, vnth; cbn [map nth peval]; unfold vnth; cbn [nth]; ring. }
  assert (PL : (0 < length taus)%nat) by lia.
  destruct (D_traj taus 0 1 NDt PL ltac:(lra) _ 2 [[a]; [0]] SX eq_refl TX) as [SD TD]. rewrite Lt in SD.
  set (D := mscale (2 / (1 - 0)) (mmul (Dmat taus) [[a; 0]; [a; 0]])) in *.
  assert (RD : forall i, (i < 2)%nat -> mrow i D = [0; 0]).
  { intros i Hi.
    rewrite (traj_row _ _ 2 2 (map pderiv [[a]; [0]]) i SD (eq_trans (times_length _ _ _) Lt) eq_refl TD Hi). reflexivity. }
  assert (ED : D = [[0; 0]; [0; 0]]).
  { apply (rows_ext 2 2); [exact SD|split; [reflexivity|repeat constructor]|]. intros i Hi. rewrite RD by exact Hi.
    destruct i as [|[|i]]; [reflexivity|reflexivity|lia]. }
  cbv [mem existsb String.eqb Ascii.eqb Bool.eqb orb gauss_like gauss_inv gauss_2 radau_like radau_inv lobato_like map app String.append andb].
  eexists. split; [reflexivity|]. cbn [app sg_x sg_x_d sg_h d2_seg]. apply sat_one. rewrite <- ED. unfold D. now rewrite Rminus_0_r.
Qed.

Theorem d2_not_joined : exists t cs, ph_t_arr rr d2_problem [1] [2; 2]%nat = Ok t /\
  ph_apply_scheme rr lg mass d2_problem [1] [2; 2]%nat d2_values = Ok cs /\ satisfied cs /\
  vnth t (point_row [2; 2]%nat 0 1) = 1 /\ vnth t (point_row [2; 2]%nat 1 0) = 1 /\
  mrow (point_row [2; 2]%nat 0 1) (hv_x d2_values) = [0; 0] /\ mrow (point_row [2; 2]%nat 1 0) (hv_x d2_values) = [1; 0].
Proof.
  set (ns := [2; 2]%nat). assert (HS : In (ph_scheme d2_problem) all_schemes) by (cbv; tauto).
  assert (HE1 : enough_points "D2" 2) by (split; [lia|intros _; lia]).
  assert (HE : Forall (enough_points (ph_scheme d2_problem)) ns) by (repeat constructor; apply HE1 || auto).
  assert (T : ph_t_start d2_problem < ph_t_end d2_problem) by (simpl; lra).
  destruct (times_ordered rr OK d2_problem [1] ns HS HE eq_refl T d2_knots) as (t & Et & Lt & Hk & _).
  destruct (times_repeated rr OK d2_problem [1] ns HS HE t Et) as [RS RE].
  specialize (RS ltac:(cbv; tauto) 1%nat ltac:(simpl; lia)). specialize (RE ltac:(cbv; tauto) 0%nat ltac:(simpl; lia)).
  rewrite Hk in RS, RE by (simpl; lia). change (vnth _ 1) with 1 in RS. change (vnth _ (0 + 1)) with 1 in RE.
  assert (EH0 : ph_h d2_problem [1] 0 = 1) by (unfold ph_h; simpl; unfold vnth; simpl; ring).
  assert (EH1 : ph_h d2_problem [1] 1 = 1) by (unfold ph_h; simpl; unfold vnth; simpl; ring).
  assert (SX : shaped (ph_n_arr ns) (ph_order d2_problem * ph_n_q d2_problem) (hv_x d2_values)) by (split; [reflexivity|repeat constructor]).
  assert (SD : shaped (ph_n_arr ns) (ph_order d2_problem * ph_n_q d2_problem) (hv_x_d d2_values)) by (split; [reflexivity|repeat constructor]).
  assert (SU : shaped (ph_n_arr ns) 1 (hv_u d2_values)) by (split; [reflexivity|repeat constructor]).
  destruct (apply_iff d2_problem [1] ns d2_values 1 eq_refl T d2_knots SX SD SU rr OK HS HE t Et lg mass (0, 0)%nat
     (fun k => ps_segment rr d2_problem (ph_seg d2_problem [1] ns d2_values k)) (fun _ => True) eq_refl) as (cs & Ecs & I).
  { reflexivity. }
  { assert (E0 : ph_seg d2_problem [1] ns d2_values 0 = d2_seg 0 0) by (unfold ph_seg; rewrite EH0; reflexivity).
    assert (E1 : ph_seg d2_problem [1] ns d2_values 1 = d2_seg 1 1) by (unfold ph_seg; rewrite EH1; reflexivity).
    assert (MZ : forall s a lam, seg_dyn mass (d2_seg s a) lam).
    { intros s a l k Hk'. cbn [sg_n sg_x sg_x_d sg_u d2_seg] in *. unfold mass.
      destruct k as [|[|k]]; [| |lia]; (constructor; [|constructor; [|constructor]]); unfold mrow, vnth; cbn [nth]; ring. }
    intros s Hs. destruct s as [|[|s]]; [| |simpl in Hs; lia]; [rewrite E0|rewrite E1];
      [destruct (d2_segment 0 0) as (cs & E & Sc)|destruct (d2_segment 1 1) as (cs & E & Sc)];
      exists cs; (split; [exact E|]); (split; [trivial|]); intros _; (split; [exact Sc|]); apply MZ. }
  exists t, cs. split; [exact Et|]. split; [exact Ecs|]. split; [|auto].
  apply I. split; [trivial|].
  assert (EX : forall s tq, (s < 2)%nat -> extrapolates (seg_times t ns s) (seg_part (hv_u d2_values) ns s) 1 tq [0]).
  { intros s tq Hs. exists [[0]]. split; [reflexivity|]. split.
    - intros j Hj. destruct j; [|simpl in Hj; lia]. assert (ES : seg_part (hv_u d2_values) ns s = [[0]; [0]]) by (destruct s as [|[|s]]; [reflexivity|reflexivity|lia]).
      assert (L2 : length (seg_times t ns s) = 2%nat) by (destruct s as [|[|s]]; [reflexivity|reflexivity|lia]).
      rewrite ES. split; [rewrite L2; simpl; lia|]. rewrite L2.
      intros [|[|i]] Hi; [| |lia]; unfold mcol; cbn [map nth peval]; unfold vnth; cbn [nth]; ring.
    - unfold state_at. simpl. f_equal. ring. }
  split; [|apply (EX 1%nat); lia]. intros s Hs. destruct s as [|[|s]]; [apply (EX 0%nat); lia|apply (EX 1%nat); lia|simpl in Hs; lia].
Qed.
End D2.

Lemma equal_knots_accepted : check_structure 0 1 [1 / 2; 1 / 2] [3; 3; 3] = Ok [3; 3; 3]%Z.
Proof.
  apply check_structure_ok. split; [repeat constructor; lra|]. split; [|split; reflexivity].
  intros i H. destruct i as [|i]; [unfold vnth; simpl; lra|simpl in H; lia].
Qed.
Lemma counts_accepted : check_structure 0 1 [1 / 2] [0; -2] = Ok [0; -2]%Z.
Proof.
  apply check_structure_ok. split; [repeat constructor; lra|]. split; [|split; reflexivity].
  intros i H. simpl in H. lia.
Qed.
Lemma good_accepted : check_structure 0 2 [1] [4; 5] = Ok [4; 5]%Z.
Proof.
  apply check_structure_ok. split; [repeat constructor; lra|]. split; [|split; reflexivity].
  intros i H. simpl in H. lia.
Qed.
