(** The constraints of one top-down or bottom-up segment (C40). *)
From Coq Require Import String.
From Coquelicot Require Import Coquelicot.
From Verif Require Import Prelude PreludeFacts Poly PolyFacts PolyInterp Mat MatFacts
  PwInterpModel PsModel JacobiFacts PsSpec PsPointsProofs PsBaryProofs PsNodesProofs PsProblemProofs PsApplyProofs PsInterpProofs
  UtilModel UtilSpec GaussFacts UtilProofs BuTdModel BuTdSpec BuTdFacts BuTdProofs BuTdApplyProofs PhModel PhSpec PhProofs PhSegProofs.
Open Scope R_scope.
Open Scope vec_scope.
Open Scope list_scope.

(** A segment of a good problem. *)
Record good_segment (p : ph_problem) (g : ph_segment) (t0 t1 : R) : Prop := {
  gs_h : sg_h g = t1 - t0; gs_t : t0 <> t1;
  gs_x : shaped (sg_n g) (ph_order p * ph_n_q p) (sg_x g);
  gs_x_d : shaped (sg_n g) (ph_order p * ph_n_q p) (sg_x_d g);
  gs_xs : length (sg_xs g) = (ph_order p * ph_n_q p)%nat; gs_xe : length (sg_xe g) = (ph_order p * ph_n_q p)%nat;
  gs_xds : length (sg_xds g) = (ph_order p * ph_n_q p)%nat; gs_xde : length (sg_xde g) = (ph_order p * ph_n_q p)%nat }.

(** The dynamics at the points of a segment. *)
Definition seg_dyn (dyn : vec -> vec -> vec -> vec -> vec) (g : ph_segment) (lam : nat -> vec) : Prop :=
  forall k, (k < sg_n g)%nat -> Forall (fun a => a = 0) (dyn (mrow k (sg_x g)) (mrow k (sg_x_d g)) (mrow k (sg_u g)) (lam k)).
Definition seg_motion dyn p (g : ph_segment) (n : nat) lam t0 t1 tc P : Prop :=
  motion_on dyn n (ph_n_q p) (ph_order p) t0 t1 (sg_xs g) (sg_xe g) tc
    (fun k => mrow k (sg_x g)) (fun k => mrow k (sg_x_d g)) (fun k => mrow k (sg_u g)) lam P.
(** What the additional equations at the knots say. *)
Definition knot_chain p (g : ph_segment) : Prop :=
  skipn (ph_n_q p) (sg_xe g) = butlastn (ph_n_q p) (sg_xde g) /\
  (sg_first g = true -> skipn (ph_n_q p) (sg_xs g) = butlastn (ph_n_q p) (sg_xds g)).

Lemma single_sat a b : satisfied [([a], [b])] <-> a = b.
Proof.
  unfold satisfied. split.
  - intros H. inversion H as [|? ? E ?]; subst. cbn [fst snd] in E. now injection E.
  - intros ->. repeat constructor.
Qed.
Lemma sat_nil : satisfied [] <-> True.
Proof. split; [trivial|]. intros _. constructor. Qed.
Lemma chain_part_iff p g :
  satisfied ([chain_constr p (sg_xe g) (sg_xde g)] ++ (if sg_first g then [chain_constr p (sg_xs g) (sg_xds g)] else []))
  <-> knot_chain p g.
Proof.
  rewrite satisfied_app. unfold knot_chain, chain_constr. rewrite single_sat. destruct (sg_first g).
  - rewrite single_sat. intuition.
  - rewrite sat_nil. intuition discriminate.
Qed.
Lemma sat_flat_map {A} (f : A -> list constr) l : satisfied (flat_map f l) <-> forall a, In a l -> satisfied (f a).
Proof.
  unfold satisfied. induction l as [|a l IH]; cbn [flat_map].
  - split; [intros _ a []|constructor].
  - rewrite Forall_app, IH. split.
    + intros [H1 H2] b [<-|I]; auto.
    + intros H. split; [apply H; now left|]. intros b I. apply H. now right.
Qed.
Lemma sat_map {A} (f : A -> constr) l : satisfied (map f l) <-> forall a, In a l -> fst (f a) = snd (f a).
Proof. unfold satisfied. rewrite Forall_map. apply Forall_forall. Qed.
Lemma sat_three a b c d e f : satisfied [(a, b); ([c], [d]); ([e], [f])] <-> a = b /\ c = d /\ e = f.
Proof.
  unfold satisfied. split.
  - intros H. inversion H as [|? ? E1 H1]; subst. inversion H1 as [|? ? E2 H2]; subst. inversion H2 as [|? ? E3 H3]; subst.
    cbn [fst snd] in *. injection E2 as ->. injection E3 as ->. auto.
  - intros (-> & -> & ->). repeat constructor.
Qed.
Lemma sat_two a b e f : satisfied [(a, b); ([e], [f])] <-> a = b /\ e = f.
Proof.
  unfold satisfied. split.
  - intros H. inversion H as [|? ? E1 H1]; subst. inversion H1 as [|? ? E2 H2]; subst.
    cbn [fst snd] in *. injection E2 as ->. auto.
  - intros (-> & ->). repeat constructor.
Qed.
Lemma seg_dyn_iff dyn g lam l r (c : vec) xs xe xds xde : sg_n g = (b2n l + length c + b2n r)%nat ->
  length (sg_x g) = sg_n g -> length (sg_x_d g) = sg_n g ->
  satisfied (bt_dyn dyn (2 + length c) (1 - b2n l, 1 - b2n r)%nat
    (Build_ps_values (assemble l r xs (sg_x g) xe) (assemble l r xds (sg_x_d g) xde) (sg_u g) (map lam (seq 0 (sg_n g)))))
  <-> seg_dyn dyn g lam.
Proof.
  intros E Lx Ld. rewrite (bt_dyn_satisfied dyn l r (length c) _ (sg_n g) E). unfold seg_dyn. cbn [pv_x pv_x_d pv_u pv_lam].
  assert (LAM : forall k, (k < sg_n g)%nat -> mrow k (map lam (seq 0 (sg_n g))) = lam k).
  { intros k Hk. unfold mrow. rewrite (nth_map' _ _ _ 0%nat) by (now rewrite seq_length). now rewrite seq_nth. }
  split; intros H k Hk; specialize (H k Hk); rewrite ?LAM, ?assemble_row in * by lia; exact H.
Qed.

Lemma Ok_inj {A} (a b : A) : Ok a = Ok b -> b = a.
Proof. congruence. Qed.

Section Td.
Variable rr : list R -> list R.
Hypothesis OK : real_roots_ok rr.
Variable dyn : vec -> vec -> vec -> vec -> vec.

Theorem td_segment_iff p g t0 t1 lam : In (ph_scheme p) bt_schemes -> enough_points (ph_scheme p) (sg_n g) ->
  (1 <= ph_order p)%nat -> (1 <= ph_n_q p)%nat -> residual_has_chain (ph_n_q p) (ph_order p) dyn ->
  good_segment p g t0 t1 -> shaped (sg_n g + ph_order p) (ph_n_q p) (sg_q_constr g) ->
  exists idx col cs, get_coll_indices (ph_scheme p) = Ok idx /\ coll_points rr (sg_n g) (ph_scheme p) (ph_order p) = Ok col /\
    length col = sg_n g /\ td_segment rr p idx g = Ok cs /\
    (satisfied cs /\ seg_dyn dyn g lam <->
     exists P, seg_motion dyn p g (sg_n g + ph_order p) lam t0 t1 (tau_to_t_points col t0 t1) P /\
       (lastn (ph_n_q p) (sg_xds g) = rate_n_at (ph_order p) P t0 /\
        lastn (ph_n_q p) (sg_xde g) = rate_n_at (ph_order p) P t1) /\ knot_chain p g /\
       forall i, (i < sg_n g + ph_order p)%nat ->
         mrow i (sg_q_constr g) = state_at P (vnth (tau_to_t_points (LGL rr (sg_n g + ph_order p)) t0 t1) i)).
Proof.
  intros H E O Q C G SQ. destruct G as [Gh Gt Gx Gd G1 G2 G3 G4].
  set (s := ph_scheme p) in *. set (N := sg_n g) in *. set (M := ph_order p) in *. set (nq := ph_n_q p) in *.
  destruct (bt_points rr OK s N M H E) as (c & S & Ec & Ec' & Eb & Ex & Ei & L).
  set (ps := seg_problem p N t0 t1).
  set (w := Build_ps_values (assemble (starts s) (ends s) (sg_xs g) (sg_x g) (sg_xe g))
              (assemble (starts s) (ends s) (sg_xds g) (sg_x_d g) (sg_xde g)) (sg_u g) (map lam (seq 0 N))).
  assert (V : bt_valid ps) by exact (conj H (conj E (conj O (conj Q Gt)))).
  destruct (td_apply rr OK dyn ps w (sg_q_constr g) V C) as (st & cs0 & Est & _ & _ & _ & _ & Ecs & Iff).
  unfold td_opti_setup in Est. cbn [ps_scheme ps_n_coll ps_order ps seg_problem] in Est. fold s in Est. fold M in Est.
  rewrite Ei in Est. cbn [rbind] in Est. rewrite Ex in Est. cbn [rbind] in Est. rewrite Ec in Est. cbn [rbind] in Est.
  apply Ok_inj in Est. subst st. cbn [bset_n_arr bset_tau bset_tau_col bset_coll] in Iff.
  change (ps_order ps) with M in Iff. change (ps_n_q ps) with nq in Iff. change (ps_n_coll ps) with N in Iff.
  change (pv_x w) with (assemble (starts s) (ends s) (sg_xs g) (sg_x g) (sg_xe g)) in Iff.
  change (pv_x_d w) with (assemble (starts s) (ends s) (sg_xds g) (sg_x_d g) (sg_xde g)) in Iff.
  change (pv_u w) with (sg_u g) in Iff. change (pv_lam w) with (map lam (seq 0 N)) in Iff.
  assert (LX : length (with_ends true true c) = (2 + length c)%nat) by (rewrite with_ends_length; simpl; lia).
  assert (LN : N = (b2n (starts s) + length c + b2n (ends s))%nat) by (rewrite <- L; apply with_ends_length).
  assert (LA : (1 - b2n (starts s) + N + (1 - b2n (ends s)))%nat = (2 + length c)%nat).
  { rewrite LN. destruct (starts s), (ends s); simpl; lia. }
  rewrite LX in Iff. rewrite <- LA in Iff at 1. rewrite <- LA in Iff at 1.
  specialize (Iff (assemble_shaped _ _ _ _ _ _ _ Gx G1 G2) (assemble_shaped _ _ _ _ _ _ _ Gd G3 G4) SQ).
  exists (1 - b2n (starts s), 1 - b2n (ends s))%nat, (with_ends (starts s) (ends s) c).
  destruct (matrix_D_nu_ok rr OK (M + N)) as (c' & _ & _ & LL & NDL & ED); [destruct E; lia|].
  destruct (matrix_L_ok rr OK s N M H E O) as (tx' & Lm & Ex' & EL & SL & RL).
  rewrite Ex in Ex'. injection Ex' as <-.
  unfold td_apply_scheme, td_opti_setup in Ecs. cbn [ps_scheme ps_n_coll ps_order ps seg_problem ps_t_start ps_t_end] in Ecs.
  fold s in Ecs. fold M in Ecs. rewrite Ei in Ecs. cbn [rbind] in Ecs. rewrite Ex in Ecs. cbn [rbind] in Ecs. rewrite Ec in Ecs.
  cbn [rbind bset_n_arr bset_coll] in Ecs. rewrite ED in Ecs. cbn [rbind] in Ecs. rewrite EL in Ecs. cbn [rbind] in Ecs.
  apply Ok_inj in Ecs. subst cs0.
  unfold td_segment. fold s N M. rewrite ED. cbn [rbind]. rewrite EL. cbn [rbind].
  eexists. split; [exact Ei|]. split; [exact Ec'|]. split; [exact L|]. split; [reflexivity|].
  rewrite satisfied_app, chain_part_iff, sat_flat_map.
  rewrite satisfied_app, LX in Iff.
  assert (LGX : length (sg_x g) = N) by apply Gx. assert (LGD : length (sg_x_d g) = N) by apply Gd.
  pose proof (seg_dyn_iff dyn g lam (starts s) (ends s) c (sg_xs g) (sg_xe g) (sg_xds g) (sg_xde g) LN LGX LGD) as SD.
  fold N in SD. fold w in SD. rewrite SD in Iff.
  set (res := fun ii => mmul (mmul (mscale ((2 / sg_h g) ^ ii) Lm) (mpow (Dmat (LGL rr (M + N))) ii)) (sg_q_constr g)).
  assert (Lres : forall ii, length (res ii) = (2 + length c)%nat).
  { intros ii. unfold res, mmul, mscale. rewrite !map_length. rewrite (shaped_length _ _ _ SL). exact LX. }
  assert (Row : (forall ii, In ii (seq 0 (M + 1)) -> satisfied
       [(ph_der p ii (sg_x g) (sg_x_d g), take (1 - b2n (starts s), 1 - b2n (ends s))%nat (res ii));
        ([ph_der_row p ii (sg_xs g) (sg_xds g)], [mrow 0 (res ii)]);
        ([ph_der_row p ii (sg_xe g) (sg_xde g)], [mrow (length (res ii) - 1) (res ii)])]) <->
     satisfied (map (fun ii => (q_and_der ps (pv_x w) (pv_x_d w) ii, res ii)) (seq 0 (M + 1))) /\
     (starts s = true -> mrow 0 (sg_x g) = sg_xs g /\ lastn nq (mrow 0 (sg_x_d g)) = lastn nq (sg_xds g)) /\
     (ends s = true -> mrow (N - 1) (sg_x g) = sg_xe g /\ lastn nq (mrow (N - 1) (sg_x_d g)) = lastn nq (sg_xde g))).
  { rewrite sat_map. cbn [fst snd].
    assert (ONE : forall ii, satisfied
       [(ph_der p ii (sg_x g) (sg_x_d g), take (1 - b2n (starts s), 1 - b2n (ends s))%nat (res ii));
        ([ph_der_row p ii (sg_xs g) (sg_xds g)], [mrow 0 (res ii)]);
        ([ph_der_row p ii (sg_xe g) (sg_xde g)], [mrow (length (res ii) - 1) (res ii)])] <->
       q_and_der ps (pv_x w) (pv_x_d w) ii = res ii /\
       (starts s = true -> ph_der_row p ii (mrow 0 (sg_x g)) (mrow 0 (sg_x_d g)) = ph_der_row p ii (sg_xs g) (sg_xds g)) /\
       (ends s = true -> ph_der_row p ii (mrow (N - 1) (sg_x g)) (mrow (N - 1) (sg_x_d g)) = ph_der_row p ii (sg_xe g) (sg_xde g))).
    { intros ii. rewrite sat_three. unfold w, ps. cbn [pv_x pv_x_d]. rewrite ph_der_assemble.
      assert (LD : length (ph_der p ii (sg_x g) (sg_x_d g)) = N) by (now apply ph_der_length).
      pose proof (assemble_iff (starts s) (ends s) (length c) (ph_der_row p ii (sg_xs g) (sg_xds g)) (ph_der_row p ii (sg_xe g) (sg_xde g))
        (ph_der p ii (sg_x g) (sg_x_d g)) (res ii) (Lres ii) (eq_trans LD LN)) as AI.
      rewrite LD in AI. destruct E as [E1 _].
      rewrite (ph_der_mrow p ii (sg_x g) (sg_x_d g) 0) in AI by lia.
      rewrite (ph_der_mrow p ii (sg_x g) (sg_x_d g) (N - 1)) in AI by lia.
      split.
      - intros (A & B & D). destruct (proj1 AI) as (F1 & F2 & F3); [now rewrite A|]. rewrite F1. auto.
      - intros (A & B & D). destruct (proj2 AI) as (F1 & F2 & F3); [now rewrite A|]. now rewrite F1, F2, F3. }
    assert (HB : forall k x xd, (k < N)%nat -> length x = (M * nq)%nat ->
      (forall ii, In ii (seq 0 (M + 1)) -> ph_der_row p ii (mrow k (sg_x g)) (mrow k (sg_x_d g)) = ph_der_row p ii x xd) <->
      mrow k (sg_x g) = x /\ lastn nq (mrow k (sg_x_d g)) = lastn nq xd).
    { intros k x xd Hk Lk.
      pose proof (rows_of_blocks p (mrow k (sg_x g)) x (mrow k (sg_x_d g)) xd O (shaped_row _ _ _ _ Gx Hk) Lk) as RB.
      fold nq in RB. rewrite <- RB.
      split; intros A ii Hi; apply A; [apply in_seq; fold M in Hi; lia|apply in_seq in Hi; fold M; lia]. }
    assert (N1 : (1 <= N)%nat) by apply E.
    split.
    - intros A. split; [|split].
      + intros ii I. now apply ONE, A.
      + intros St. apply HB; [lia|exact G1|]. intros ii I. apply A, ONE in I. now apply I.
      + intros St. apply HB; [lia|exact G2|]. intros ii I. apply A, ONE in I. now apply I.
    - intros (A & B & D) ii I. apply ONE. split; [now apply A|]. split.
      + intros St. apply (HB 0%nat); auto.
      + intros St. apply (HB (N - 1)%nat); auto. lia. }
  cbn beta zeta. fold (res). 
  change (forall a, In a (seq 0 (M + 1)) -> _) with (forall ii, In ii (seq 0 (M + 1)) -> satisfied
       [(ph_der p ii (sg_x g) (sg_x_d g), take (1 - b2n (starts s), 1 - b2n (ends s))%nat (res ii));
        ([ph_der_row p ii (sg_xs g) (sg_xds g)], [mrow 0 (res ii)]);
        ([ph_der_row p ii (sg_xe g) (sg_xde g)], [mrow (length (res ii) - 1) (res ii)])]).
  rewrite Row.
  assert (Iff' : satisfied (map (fun ii => (q_and_der ps (pv_x w) (pv_x_d w) ii, res ii)) (seq 0 (M + 1))) /\ seg_dyn dyn g lam <->
    exists P, order_solution dyn (N + M) nq M (t_of ps (with_ends true true c)) (t_of ps (with_ends (starts s) (ends s) c))
        (pv_x w) (pv_x_d w) (sg_u g) (map lam (seq 0 N)) P /\
      forall i, (i < N + M)%nat -> mrow i (sg_q_constr g) = state_at P (vnth (t_of ps (LGL rr (N + M))) i)).
  { unfold res. rewrite Gh. exact Iff. }
  assert (AS := fun P => assembled_solution dyn (N + M) nq M t0 t1 (starts s) (ends s) c (sg_xs g) (sg_xe g) (sg_xds g) (sg_xde g)
     (sg_x g) (sg_x_d g) (sg_u g) lam P Q O).
  rewrite L in AS. assert (NDX : NoDup (with_ends true true c)) by (now apply (with_ends_NoDup _ _ _ _ S)).
  assert (N1 : (1 <= N)%nat) by apply E.
  specialize (fun P => AS P N1 Gt NDX LGX LGD). fold M nq in AS.
  split.
  - intros (((A & B) & D) & F). destruct (proj1 Iff' (conj A F)) as (P & OS & QP).
    destruct (proj1 (AS P) (conj OS B)) as (MO & K). exists P. split; [exact MO|]. split; [exact K|]. split; [exact D|exact QP].
  - intros (P & MO & K & D & QP). destruct (proj2 (AS P) (conj MO K)) as (OS & B).
    destruct (proj2 Iff' (ex_intro _ P (conj OS QP))) as (A & F). split; [|exact F]. split; [|exact D]. split; [exact A|exact B].
Qed.
End Td.

Lemma take_assemble l r s col e : take (1 - b2n l, 1 - b2n r)%nat (assemble l r s col e) = col.
Proof.
  unfold take. cbn [fst snd]. rewrite assemble_length. unfold assemble.
  assert (E : skipn (1 - b2n l) ((if l then [] else [s]) ++ col ++ (if r then [] else [e])) = col ++ (if r then [] else [e])).
  { destruct l; reflexivity. }
  rewrite E. replace (1 - b2n l + length col + (1 - b2n r) - (1 - b2n l) - (1 - b2n r))%nat with (length col) by lia.
  rewrite firstn_app, Nat.sub_diag, firstn_all. apply app_nil_r.
Qed.
Lemma mat_head (A : mat) v n : length A = S n -> mrow 0 A = v -> A = [v] ++ skipn 1 A.
Proof. intros L <-. destruct A; [discriminate|reflexivity]. Qed.
Lemma sat_one a b : satisfied [(a, b)] <-> a = b.
Proof.
  unfold satisfied. split.
  - intros H. inversion H as [|? ? E ?]; subst. exact E.
  - intros ->. repeat constructor.
Qed.
Lemma sat_concat css : satisfied (concat css) <-> forall cs, In cs css -> satisfied cs.
Proof.
  unfold satisfied. induction css as [|c css IH]; cbn [concat].
  - split; [intros _ a []|constructor].
  - rewrite Forall_app, IH. split.
    + intros [H1 H2] b [<-|I]; auto.
    + intros H. split; [apply H; now left|]. intros b I. apply H. now right.
Qed.

Section Bu.
Variable rr : list R -> list R.
Hypothesis OK : real_roots_ok rr.
Variable lg : nat -> vec * vec.
Hypothesis LGOK : leggauss_ok lg.
Variable dyn : vec -> vec -> vec -> vec -> vec.

Theorem bu_segment_iff p g t0 t1 lam : In (ph_scheme p) bt_schemes -> enough_points (ph_scheme p) (sg_n g) ->
  bu_sized (ph_scheme p) (sg_n g) ->
  (1 <= ph_order p)%nat -> (1 <= ph_n_q p)%nat -> residual_has_chain (ph_n_q p) (ph_order p) dyn ->
  good_segment p g t0 t1 ->
  exists idx col cs, get_coll_indices (ph_scheme p) = Ok idx /\ coll_points rr (sg_n g) (ph_scheme p) (ph_order p) = Ok col /\
    length col = sg_n g /\ bu_segment rr lg p idx g = Ok cs /\
    (satisfied cs /\ seg_dyn dyn g lam <->
     exists P, seg_motion dyn p g (sg_n g + ph_order p) lam t0 t1 (tau_to_t_points col t0 t1) P /\
       (lastn (ph_n_q p) (sg_xds g) = rate_n_at (ph_order p) P t0 /\
        (sg_last g = true -> lastn (ph_n_q p) (sg_xde g) = rate_n_at (ph_order p) P t1)) /\ knot_chain p g).
Proof.
  intros H E BS O Q C G. destruct G as [Gh Gt Gx Gd G1 G2 G3 G4].
  set (s := ph_scheme p) in *. set (N := sg_n g) in *. set (M := ph_order p) in *. set (nq := ph_n_q p) in *.
  destruct (bt_points rr OK s N M H E) as (c & S & Ec & Ec' & Ex & _ & Ei & L).
  set (ps := seg_problem p N t0 t1).
  set (X := assemble (starts s) (ends s) (sg_xs g) (sg_x g) (sg_xe g)).
  set (XD := fun xde => assemble (starts s) (ends s) (sg_xds g) (sg_x_d g) xde).
  set (w := fun xde => Build_ps_values X (XD xde) (sg_u g) (map lam (seq 0 N))).
  assert (V : bt_valid ps) by exact (conj H (conj E (conj O (conj Q Gt)))).
  assert (LX1 : length (with_ends false true c) = (1 + length c)%nat) by (rewrite with_ends_length; simpl; lia).
  assert (LN : N = (b2n (starts s) + length c + b2n (ends s))%nat) by (rewrite <- L; apply with_ends_length).
  assert (LA : (1 - b2n (starts s) + N + (1 - b2n (ends s)))%nat = (2 + length c)%nat).
  { rewrite LN. destruct (starts s), (ends s); simpl; lia. }
  assert (LGX : length (sg_x g) = N) by apply Gx. assert (LGD : length (sg_x_d g) = N) by apply Gd.
  assert (N1 : (1 <= N)%nat) by apply E.
  assert (LXX : length X = (2 + length c)%nat) by (unfold X; rewrite assemble_length; lia).
  destruct (Extreme_Matrix_ok rr OK s N "start" (-1) M H E (or_introl eq_refl)) as (tc1 & A1 & Ec1 & _ & ND & EA1 & SA1 & _).
  destruct (Extreme_Matrix_ok rr OK s N "end" 1 M H E (or_intror (or_introl eq_refl))) as (tc2 & A2 & Ec2 & _ & _ & EA2 & SA2 & _).
  rewrite Ec in Ec1, Ec2. apply Ok_inj in Ec1, Ec2. subst tc1 tc2.
  assert (M1 : mem s (gauss_like ++ radau_inv) = negb (starts s)) by (clear - H; revert H; generalize s; intros s' H; bt_cases H; reflexivity).
  assert (M2 : mem s (gauss_like ++ radau_like) = negb (ends s)) by (clear - H; revert H; generalize s; intros s' H; bt_cases H; reflexivity).
  assert (M3 : mem s (lobato_like ++ radau_like) = starts s) by (clear - H; revert H; generalize s; intros s' H; bt_cases H; reflexivity).
  assert (M4 : mem s (lobato_like ++ radau_inv) = ends s) by (clear - H; revert H; generalize s; intros s' H; bt_cases H; reflexivity).
  assert (IM : forall k, (k < M)%nat -> exists A, Integration_Matrix rr lg N s k (t1 - t0) M = Ok A /\ length A = (1 + length c)%nat).
  { intros k Hk. destruct (Integration_Matrix_ok rr OK lg LGOK s N k (t1 - t0) M H E BS Hk) as (tc' & tx' & A & E1 & E2 & E3 & _ & _ & E4 & E5).
    rewrite Ex in E2. apply Ok_inj in E2. subst tx'. exists A. split; [exact E3|]. rewrite <- LX1. apply E4. }
  set (f := fun k => match Integration_Matrix rr lg N s k (t1 - t0) M with Ok A => A | Err _ => [] end).
  assert (Ef : forall k, (k < M)%nat -> Integration_Matrix rr lg N s k (t1 - t0) M = Ok (f k) /\ length (f k) = (1 + length c)%nat).
  { intros k Hk. destruct (IM k Hk) as (A & EA & LAA). unfold f. rewrite EA. auto. }
  set (idx := (1 - b2n (starts s), 1 - b2n (ends s))%nat) in *.
  set (hi_col := ph_der p M (sg_x g) (sg_x_d g)).
  set (poly := map (fun ii => ph_der_row p ii (sg_xs g) (sg_xds g)) (seq 0 M) ++ hi_col).
  set (res := fun ii => [ph_der_row p ii (sg_xs g) (sg_xds g)] ++ mmul (f ii) poly).
  set (hi := fun xd : vec => lastn nq xd).
  assert (HI : forall x xd, ph_der_row p M x xd = hi xd) by (intros x xd; unfold ph_der_row; fold M; now rewrite Nat.ltb_irrefl).
  (* the constraints, for any value of x_d at the end *)
  set (CE := fun xde => (ends s = false -> [hi xde] = mmul A2 hi_col) /\ (ends s = true -> hi xde = mrow (N - 1) hi_col)).
  set (CS := ((starts s = false -> [hi (sg_xds g)] = mmul A1 hi_col) /\ (starts s = true -> hi (sg_xds g) = mrow 0 hi_col)) /\
     forall ii, (ii < M)%nat -> ph_der p ii (sg_x g) (sg_x_d g) = take idx (res ii) /\
       ph_der_row p ii (sg_xe g) [] = mrow (length (res ii) - 1) (res ii)).
  assert (LD : forall ii, length (ph_der p ii (sg_x g) (sg_x_d g)) = N) by (intros ii; now apply ph_der_length).
  assert (XE : forall ii xd xd', (ii < M)%nat -> ph_der_row p ii (sg_xe g) xd = ph_der_row p ii (sg_xe g) xd').
  { intros ii xd xd' Hi. unfold ph_der_row. apply Nat.ltb_lt in Hi. fold M. now rewrite Hi. }
  assert (HC : forall k, (k < N)%nat -> mrow k hi_col = hi (mrow k (sg_x_d g))).
  { intros k Hk. unfold hi_col. rewrite ph_der_mrow by lia. apply HI. }
  assert (LR : forall ii, (ii < M)%nat -> length (res ii) = (2 + length c)%nat).
  { intros ii Hi. unfold res, mmul. cbn [app length]. rewrite map_length. destruct (Ef ii Hi) as [_ ->]. lia. }
  assert (Core : forall xde, length xde = (M * nq)%nat -> (CS /\ CE xde) /\ seg_dyn dyn g lam <->
     exists P, seg_motion dyn p g (N + M) lam t0 t1 (tau_to_t_points (with_ends (starts s) (ends s) c) t0 t1) P /\
       hi (sg_xds g) = rate_n_at M P t0 /\ hi xde = rate_n_at M P t1).
  { intros xde Lxde.
    assert (LXD : length (XD xde) = (2 + length c)%nat) by (unfold XD; rewrite assemble_length; lia).
    destruct (bu_apply rr OK lg LGOK dyn ps (w xde) V BS C) as (st & cs0 & Est & _ & _ & _ & _ & Ecs & Iff).
    unfold bu_opti_setup in Est. cbn [ps_scheme ps_n_coll ps_order ps seg_problem] in Est. fold s in Est. fold M in Est.
    rewrite Ei in Est. cbn [rbind] in Est. rewrite Ex in Est. cbn [rbind] in Est. rewrite Ec in Est. cbn [rbind] in Est.
    apply Ok_inj in Est. subst st. cbn [bset_n_arr bset_tau bset_tau_col bset_coll] in Iff.
    change (ps_order ps) with M in Iff. change (ps_n_q ps) with nq in Iff. change (ps_n_coll ps) with N in Iff.
    change (pv_x (w xde)) with X in Iff. change (pv_x_d (w xde)) with (XD xde) in Iff.
    change (pv_u (w xde)) with (sg_u g) in Iff. change (pv_lam (w xde)) with (map lam (seq 0 N)) in Iff.
    change ([-1] ++ with_ends false true c) with (with_ends true true c) in Iff.
    rewrite LX1 in Iff. replace (1 + length c + 1)%nat with (2 + length c)%nat in Iff by lia.
    rewrite <- LA in Iff at 1. rewrite <- LA in Iff at 1.
    specialize (Iff (assemble_shaped _ _ _ _ _ _ _ Gx G1 G2) (assemble_shaped _ _ _ _ _ _ _ Gd G3 Lxde)).
    set (hia := q_and_der ps X (XD xde) M).
    assert (Ehia : hia = assemble (starts s) (ends s) (hi (sg_xds g)) hi_col (hi xde)).
    { unfold hia, X, XD, ps. rewrite ph_der_assemble, !HI. reflexivity. }
    set (data := map (fun ii => mrow 0 (q_and_der ps X (XD xde) ii)) (seq 0 M) ++ take idx hia).
    set (cs1 := if mem s (gauss_like ++ radau_inv) then [([mrow 0 hia], mmul A1 (take idx hia))] else [] : list constr).
    set (cs2 := if mem s (gauss_like ++ radau_like) then [([mrow (length hia - 1) hia], mmul A2 (take idx hia))] else [] : list constr).
    set (cs3 := map (fun ii => (skipn 1 (q_and_der ps X (XD xde) ii), mmul (f ii) data)) (seq 0 M) : list constr).
    assert (Ecs' : bu_apply_scheme rr lg dyn ps (w xde) = Ok (cs1 ++ cs2 ++ cs3 ++ bt_dyn dyn (2 + length c) idx (w xde))).
    { unfold bu_apply_scheme, bu_opti_setup. cbn [ps_scheme ps_n_coll ps_order ps seg_problem ps_t_start ps_t_end].
      fold s. fold M. rewrite Ei. cbn [rbind]. rewrite Ex. cbn [rbind]. rewrite Ec. cbn [rbind bset_n_arr bset_coll].
      fold ps. change (pv_x (w xde)) with X. change (pv_x_d (w xde)) with (XD xde). fold hia. fold data.
      assert (X1 : (if mem s (gauss_like ++ radau_inv)
         then do start_mat <- Extreme_Matrix rr N s "start" M; Ok [([mrow 0 hia], mmul start_mat (take idx hia))]
         else Ok []) = Ok cs1).
      { unfold cs1. destruct (mem s (gauss_like ++ radau_inv)); [now rewrite EA1|reflexivity]. }
      rewrite X1. cbn [rbind].
      assert (X2 : (if mem s (gauss_like ++ radau_like)
         then do end_mat <- Extreme_Matrix rr N s "end" M; Ok [([mrow (length hia - 1) hia], mmul end_mat (take idx hia))]
         else Ok []) = Ok cs2).
      { unfold cs2. destruct (mem s (gauss_like ++ radau_like)); [now rewrite EA2|reflexivity]. }
      rewrite X2. cbn [rbind].
      rewrite (mapm_ext _ (fun ii => Ok (skipn 1 (q_and_der ps X (XD xde) ii), mmul (f ii) data))).
      - rewrite mapm_Ok. cbn [rbind]. rewrite LX1. replace (1 + length c + 1)%nat with (2 + length c)%nat by lia. reflexivity.
      - intros k Hk. apply in_seq in Hk. destruct (Ef k ltac:(lia)) as [-> _]. reflexivity. }
    rewrite Ecs in Ecs'. apply Ok_inj in Ecs'. subst cs0.
    rewrite !satisfied_app in Iff.
    pose proof (seg_dyn_iff dyn g lam (starts s) (ends s) c (sg_xs g) (sg_xe g) (sg_xds g) xde LN LGX LGD) as SD.
    fold N in SD. fold X in SD. fold (XD xde) in SD. fold (w xde) in SD. fold idx in SD. rewrite SD in Iff.
    set (lc := starts s = true -> mrow 0 (sg_x g) = sg_xs g /\ hi (mrow 0 (sg_x_d g)) = hi (sg_xds g)).
    set (rc := ends s = true -> mrow (N - 1) (sg_x g) = sg_xe g /\ hi (mrow (N - 1) (sg_x_d g)) = hi xde).
    assert (Key : CS /\ CE xde <-> (satisfied cs1 /\ satisfied cs2 /\ satisfied cs3) /\ lc /\ rc).
    { assert (Thia : take idx hia = hi_col) by (rewrite Ehia; apply take_assemble).
      assert (AI : forall ii, (ii < M)%nat ->
        (ph_der p ii (sg_x g) (sg_x_d g) = take idx (res ii) /\ ph_der_row p ii (sg_xe g) [] = mrow (length (res ii) - 1) (res ii)) <->
        (q_and_der ps X (XD xde) ii = res ii /\
         (starts s = true -> ph_der_row p ii (mrow 0 (sg_x g)) (mrow 0 (sg_x_d g)) = ph_der_row p ii (sg_xs g) (sg_xds g)) /\
         (ends s = true -> ph_der_row p ii (mrow (N - 1) (sg_x g)) (mrow (N - 1) (sg_x_d g)) = ph_der_row p ii (sg_xe g) xde))).
      { intros ii Hi. unfold X, XD, ps. rewrite ph_der_assemble.
        pose proof (assemble_iff (starts s) (ends s) (length c) (ph_der_row p ii (sg_xs g) (sg_xds g)) (ph_der_row p ii (sg_xe g) xde)
          (ph_der p ii (sg_x g) (sg_x_d g)) (res ii) (LR ii Hi) (eq_trans (LD ii) LN)) as AI.
        rewrite LD in AI. rewrite (ph_der_mrow p ii (sg_x g) (sg_x_d g) 0) in AI by lia.
        rewrite (ph_der_mrow p ii (sg_x g) (sg_x_d g) (N - 1)) in AI by lia. fold idx in AI.
        rewrite (XE ii [] xde Hi). split.
        - intros (A & B). destruct (proj1 AI) as (F1 & F2 & F3); [split; [now rewrite A|split; [reflexivity|now rewrite B]]|]. rewrite F1. auto.
        - intros (A & B & D). destruct (proj2 AI) as (F1 & F2 & F3); [now rewrite A|]. now rewrite F1, F3. }
      assert (RB : forall k x xd, (k < N)%nat -> length x = (M * nq)%nat ->
        (forall i, (i <= M)%nat -> ph_der_row p i (mrow k (sg_x g)) (mrow k (sg_x_d g)) = ph_der_row p i x xd) <->
        mrow k (sg_x g) = x /\ hi (mrow k (sg_x_d g)) = hi xd).
      { intros k x xd Hk Lk. exact (rows_of_blocks p (mrow k (sg_x g)) x (mrow k (sg_x_d g)) xd O (shaped_row _ _ _ _ Gx Hk) Lk). }
      assert (DAT : lc -> data = poly).
      { intros Hl. unfold data, poly. rewrite Thia. f_equal. apply map_ext_in. intros ii I. apply in_seq in I.
        unfold X, XD, ps. rewrite ph_der_assemble. apply assemble_first_gen. intros St. rewrite LD. split; [lia|].
        rewrite ph_der_mrow by lia. destruct (Hl St) as [-> _].
        unfold ph_der_row. fold M. destruct (Nat.ltb_spec ii M); [reflexivity|lia]. }
      assert (QL : forall ii, length (q_and_der ps X (XD xde) ii) = (2 + length c)%nat).
      { intros ii. unfold X, XD, ps. rewrite ph_der_assemble, assemble_length, LD. exact LA. }
      assert (C3 : lc -> (satisfied cs3 <-> forall ii, (ii < M)%nat -> q_and_der ps X (XD xde) ii = res ii)).
      { intros Hl. unfold cs3. rewrite sat_map. cbn [fst snd]. rewrite (DAT Hl).
        assert (Z : forall ii, (ii < M)%nat -> mrow 0 (q_and_der ps X (XD xde) ii) = ph_der_row p ii (sg_xs g) (sg_xds g)).
        { intros ii Hi. unfold X, XD, ps. rewrite ph_der_assemble. apply assemble_first_gen. intros St. rewrite LD. split; [lia|].
          rewrite ph_der_mrow by lia. destruct (Hl St) as [-> _].
          unfold ph_der_row. fold M. destruct (Nat.ltb_spec ii M); [reflexivity|lia]. }
        split.
        - intros A ii Hi. unfold res. rewrite <- A by (apply in_seq; lia). apply (mat_head _ _ (1 + length c)); [apply QL|now apply Z].
        - intros A ii Hi. apply in_seq in Hi. rewrite A by lia. reflexivity. }
      assert (CC1 : satisfied cs1 <-> (starts s = false -> [hi (sg_xds g)] = mmul A1 hi_col)).
      { unfold cs1. rewrite M1, Thia. destruct (Bool.bool_dec (starts s) true) as [Z|Z].
        - rewrite Z. cbn [negb]. rewrite sat_nil. intuition discriminate.
        - apply Bool.not_true_is_false in Z. rewrite Z. cbn [negb]. rewrite sat_one. rewrite Ehia, Z, assemble_first. intuition. }
      assert (CC2 : satisfied cs2 <-> (ends s = false -> [hi xde] = mmul A2 hi_col)).
      { unfold cs2. rewrite M2, Thia. destruct (Bool.bool_dec (ends s) true) as [Z|Z].
        - rewrite Z. cbn [negb]. rewrite sat_nil. intuition discriminate.
        - apply Bool.not_true_is_false in Z. rewrite Z. cbn [negb]. rewrite sat_one. rewrite Ehia, Z, assemble_last. intuition. }
      rewrite CC1, CC2. unfold CS, CE. split.
      - intros (((B1 & B2) & B3) & B4 & B5).
        assert (Hl : lc).
        { intros St. apply RB; [lia|exact G1|]. intros i Hi. destruct (Nat.eq_dec i M) as [->|NE].
          - rewrite !HI. rewrite <- HC by lia. symmetry. now apply B2.
          - now apply (AI i ltac:(lia)); [apply B3; lia|]. }
        assert (Hr : rc).
        { intros St. apply RB; [lia|exact G2|]. intros i Hi. destruct (Nat.eq_dec i M) as [->|NE].
          - rewrite !HI. rewrite <- HC by lia. symmetry. now apply B5.
          - now apply (AI i ltac:(lia)); [apply B3; lia|]. }
        split; [|split; assumption]. split; [exact B1|]. split; [exact B4|].
        apply (C3 Hl). intros ii Hi. apply AI; [exact Hi|]. now apply B3.
      - intros ((B1 & B2 & B3) & Hl & Hr). split; [split; [split|]|split].
        + exact B1.
        + intros St. rewrite HC by lia. destruct (Hl St) as [_ ->]. reflexivity.
        + pose proof (proj1 (C3 Hl) B3) as B3'. intros ii Hi. apply AI; [exact Hi|]. split; [now apply B3'|]. split.
          * intros St. apply (RB 0%nat); auto. lia.
          * intros St. apply (RB (N - 1)%nat); auto; lia.
        + exact B2.
        + intros St. rewrite HC by lia. destruct (Hr St) as [_ ->]. reflexivity. }
    assert (AS := fun P => assembled_solution dyn (N + M) nq M t0 t1 (starts s) (ends s) c (sg_xs g) (sg_xe g) (sg_xds g) xde
       (sg_x g) (sg_x_d g) (sg_u g) lam P Q O).
    rewrite L in AS. assert (NDX : NoDup (with_ends true true c)) by (now apply (with_ends_NoDup _ _ _ _ S)).
    specialize (fun P => AS P N1 Gt NDX LGX LGD).
    rewrite Key. split.
    - intros (((A1' & A2' & A3') & B) & D). destruct (proj1 Iff (conj A1' (conj A2' (conj A3' D)))) as (P & OS).
      destruct (proj1 (AS P) (conj OS B)) as (MO & K). exists P. split; [exact MO|exact K].
    - intros (P & MO & K). destruct (proj2 (AS P) (conj MO K)) as (OS & B).
      destruct (proj2 Iff (ex_intro _ P OS)) as (A1' & A2' & A3' & D). split; [|exact D]. split; [auto|exact B]. }
  exists idx, (with_ends (starts s) (ends s) c).
  set (k1 := if starts s then ([hi (sg_xds g)], [mrow 0 hi_col]) else ([hi (sg_xds g)], mmul A1 hi_col) : constr).
  set (k2 := if sg_last g then [if ends s then ([hi (sg_xde g)], [mrow (N - 1) hi_col]) else ([hi (sg_xde g)], mmul A2 hi_col)] else [] : list constr).
  set (k4 := map (fun ii => [(ph_der p ii (sg_x g) (sg_x_d g), take idx (res ii));
          ([ph_der_row p ii (sg_xe g) (sg_xde g)], [mrow (length (res ii) - 1) (res ii)])]) (seq 0 M) : list (list constr)).
  exists ([k1] ++ k2 ++ ([chain_constr p (sg_xe g) (sg_xde g)] ++ (if sg_first g then [chain_constr p (sg_xs g) (sg_xds g)] else [])) ++ concat k4).
  split; [exact Ei|]. split; [exact Ec'|]. split; [exact L|]. split.
  { unfold bu_segment. fold s N M. fold hi_col. rewrite !HI. rewrite M1, M2, M3, M4.
    assert (X1 : (if negb (starts s) then do start_mat <- Extreme_Matrix rr N s "start" M; Ok [([hi (sg_xds g)], mmul start_mat hi_col)]
       else if starts s then Ok [([hi (sg_xds g)], [mrow 0 hi_col])] else Err ValueError) = Ok [k1]).
    { unfold k1. destruct (starts s); cbn [negb]; [reflexivity|]. now rewrite EA1. }
    rewrite X1. cbn [rbind].
    assert (X2 : (if sg_last g then if negb (ends s) then do end_mat <- Extreme_Matrix rr N s "end" M; Ok [([hi (sg_xde g)], mmul end_mat hi_col)]
       else if ends s then Ok [([hi (sg_xde g)], [mrow (length hi_col - 1) hi_col])] else Err ValueError else Ok []) = Ok k2).
    { unfold k2. destruct (sg_last g); [|reflexivity]. unfold hi_col at 2. rewrite LD. destruct (ends s); cbn [negb]; [reflexivity|]. now rewrite EA2. }
    rewrite X2. cbn [rbind]. rewrite Gh.
    rewrite (mapm_ext _ (fun ii => Ok [(ph_der p ii (sg_x g) (sg_x_d g), take idx (res ii));
          ([ph_der_row p ii (sg_xe g) (sg_xde g)], [mrow (length (res ii) - 1) (res ii)])])).
    - rewrite mapm_Ok. reflexivity.
    - intros ii I. apply in_seq in I. destruct (Ef ii ltac:(lia)) as [-> _]. reflexivity. }
  assert (K4 : satisfied (concat k4) <-> forall ii, (ii < M)%nat -> ph_der p ii (sg_x g) (sg_x_d g) = take idx (res ii) /\
       ph_der_row p ii (sg_xe g) [] = mrow (length (res ii) - 1) (res ii)).
  { rewrite sat_concat. unfold k4. split.
    - intros A ii Hi. rewrite (XE ii [] (sg_xde g) Hi). apply sat_two, A, in_map_iff. exists ii. split; [reflexivity|]. apply in_seq. lia.
    - intros A cs I. apply in_map_iff in I. destruct I as (ii & <- & I). apply in_seq in I. apply sat_two.
      rewrite (XE ii (sg_xde g) []) by lia. apply A. lia. }
  assert (K1 : satisfied [k1] <-> (starts s = false -> [hi (sg_xds g)] = mmul A1 hi_col) /\ (starts s = true -> hi (sg_xds g) = mrow 0 hi_col)).
  { unfold k1. destruct (starts s); rewrite sat_one.
    - rewrite single_eq. intuition discriminate.
    - intuition discriminate. }
  assert (K2 : satisfied k2 <-> (sg_last g = true -> CE (sg_xde g))).
  { unfold k2, CE. destruct (sg_last g); [|rewrite sat_nil; intuition discriminate]. destruct (ends s); rewrite sat_one.
    - rewrite single_eq. intuition discriminate.
    - intuition discriminate. }
  change ([k1] ++ ?z) with ([k1] ++ z). rewrite (satisfied_app [k1]), (satisfied_app k2).
  rewrite (satisfied_app (_ ++ _) (concat k4)), chain_part_iff, K1, K2, K4.
  fold hi. change (lastn nq) with hi.
  destruct (Bool.bool_dec (sg_last g) true) as [La|La].
  - split.
    + intros ((A & B & D & F) & SD). destruct (proj1 (Core (sg_xde g) G4)) as (P & MO & K & K').
      { split; [|exact SD]. split; [split; assumption|now apply B]. }
      exists P. split; [exact MO|]. split; [split; auto|exact D].
    + intros (P & MO & (K & K') & D). destruct (proj2 (Core (sg_xde g) G4)) as (((A & F) & B) & SD).
      { exists P. split; [exact MO|]. split; [exact K|now apply K']. }
      split; [|exact SD]. split; [exact A|]. split; [auto|]. split; [exact D|exact F].
  - split.
    + intros ((A & B & D & F) & SD).
      assert (Shc : shaped N nq hi_col).
      { unfold hi_col. apply (q_and_der_shaped ps (sg_x g) (sg_x_d g) N M); assumption. }
      assert (EX : exists xde, length xde = (M * nq)%nat /\ CE xde).
      { destruct (Bool.bool_dec (ends s) true) as [Z|Z].
        - exists (mrow (N - 1) (sg_x_d g)). split; [apply (shaped_row _ _ _ _ Gd); lia|]. split; [congruence|].
          intros _. rewrite HC by lia. reflexivity.
        - assert (Sm : shaped 1 nq (mmul A2 hi_col)) by (apply (mmul_shaped 1 N nq); [exact SA2|exact Shc|lia]).
          exists (repeat 0 ((M - 1) * nq) ++ mrow 0 (mmul A2 hi_col)).
          assert (Lm : length (mrow 0 (mmul A2 hi_col)) = nq) by (apply (shaped_row _ _ _ _ Sm); lia).
          split; [rewrite app_length, repeat_length, Lm; nia|]. split; [|congruence].
          intros _. unfold hi. rewrite lastn_app by (rewrite ?Lm; lia).
          destruct Sm as [Sm _]. destruct (mmul A2 hi_col) as [|a [|]]; try (simpl in Sm; lia). reflexivity. }
      destruct EX as (xde & Lx & HE). destruct (proj1 (Core xde Lx)) as (P & MO & K & K').
      { split; [|exact SD]. split; [split; assumption|exact HE]. }
      exists P. split; [exact MO|]. split; [split; [exact K|congruence]|exact D].
    + intros (P & MO & (K & K') & D).
      assert (LP : length P = nq) by apply MO.
      destruct (proj2 (Core (full_rate M P t1) ltac:(rewrite full_rate_length; congruence))) as (((A & F) & B) & SD).
      { exists P. split; [exact MO|]. split; [exact K|]. unfold hi. now apply lastn_full_rate. }
      split; [|exact SD]. split; [exact A|]. split; [congruence|]. split; [exact D|exact F].
Qed.
End Bu.
