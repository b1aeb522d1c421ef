(** The samples of all the segments. *)
From Coq Require Import String.
From Coquelicot Require Import Coquelicot.
From Verif Require Import Prelude PreludeFacts Poly PolyFacts PolyInterp Mat MatFacts PwModel PwFacts PwInterpModel PwInterpProofs
  PsModel JacobiFacts PsSpec PsPointsProofs PsBaryProofs PsNodesProofs PsProblemProofs PsApplyProofs PsInterpProofs PsMoreProofs
  UtilModel UtilSpec BuTdModel BuTdSpec BuTdFacts BuTdProofs BuTdApplyProofs BuTdInterpProofs
  PhModel PhSpec PhProofs PhSegProofs PhBtProofs PhMoreProofs PhJoinProofs
  AnalysisModel AnalysisSpec AnalysisProofs AnalysisPhProofs AnalysisSegProofs AnalysisSavedProofs.
Open Scope R_scope.
Open Scope vec_scope.
Open Scope list_scope.

Lemma in_len_eq n ts knots : in_len n ts knots = in_len_from n 0 (map (searchsorted ts) knots).
Proof.
  unfold in_len. destruct (map (searchsorted ts) knots) as [|j jj]; cbn [in_len_from].
  - now rewrite Nat.sub_0_r.
  - now rewrite Nat.sub_0_r.
Qed.

Lemma in_len_from_length n jj : forall prev, length (in_len_from n prev jj) = (length jj + 1)%nat.
Proof. induction jj as [|j jj IH]; intros prev; cbn [in_len_from length]; [reflexivity|]. now rewrite IH. Qed.

Lemma mapm_choose {A B} (f : A -> Res B) (Q : A -> B -> Prop) (da : A) (db : B) l :
  (forall a, In a l -> exists b, f a = Ok b /\ Q a b) ->
  exists bs, mapm f l = Ok bs /\ length bs = length l /\ forall i, (i < length l)%nat -> Q (nth i l da) (nth i bs db).
Proof.
  induction l as [|a l IH]; intros H.
  - exists []. split; [reflexivity|]. split; [reflexivity|]. intros i Hi. cbn in Hi. lia.
  - destruct (H a (or_introl eq_refl)) as (b & E & Qb). destruct IH as (bs & Es & L & Qs). { intros x Hx. apply H. now right. }
    exists (b :: bs). cbn [mapm]. rewrite E. cbn [rbind]. rewrite Es.
    split; [reflexivity|]. split; [cbn [length]; now rewrite L|]. intros [|i] Hi; [exact Qb|]. apply Qs. cbn [length] in Hi. lia.
Qed.

Section Join.
Variable rr : list R -> list R.
Hypothesis OK : real_roots_ok rr.
Variable lg : nat -> vec * vec.
Variable u_other : string -> R -> Res vec.
Variable hermite : list R -> list vec -> list vec -> R -> vec.
Variables (p : ph_problem) (knots : vec) (ns : list nat) (w : ph_values) (nu : nat) (t : vec).
Hypothesis LK : length ns = (length knots + 1)%nat.
Hypothesis T : ph_t_start p < ph_t_end p.
Hypothesis GK : good_knots (ph_t_start p) (ph_t_end p) knots.
Hypothesis HS : In (ph_scheme p) all_schemes.
Hypothesis HC : ~ In (ph_scheme p) half_open.
Hypothesis HE : Forall (enough_points (ph_scheme p)) ns.
Hypothesis HO : (1 <= ph_order p)%nat.
Hypothesis HQ : (1 <= ph_n_q p)%nat.
Hypothesis SX : shaped (ph_n_arr ns) (ph_order p * ph_n_q p) (hv_x w).
Hypothesis SD : shaped (ph_n_arr ns) (ph_order p * ph_n_q p) (hv_x_d w).
Hypothesis SU : shaped (ph_n_arr ns) nu (hv_u w).
Hypothesis Ht : ph_t_arr rr p knots ns = Ok t.
Notation tk := (knot_times (ph_t_start p) (ph_t_end p) knots).
Notation L := (length ns).
Notation M := (ph_order p).

Lemma t_ends : pyget t 0%Z = Ok (ph_t_start p) /\ pyget t (-1)%Z = Ok (ph_t_end p).
Proof.
  unfold ph_t_arr in Ht. destruct (ph_t_col rr p knots ns) as [cols|e]; cbn [rbind] in Ht; [|discriminate].
  apply Ok_inj in Ht. rewrite Ht. split; [apply pyget_0|].
  assert (EL : L = S (length knots)) by lia. rewrite EL, seq_S, flat_map_app. cbn [flat_map Nat.add]. rewrite app_nil_r.
  rewrite !app_assoc. rewrite pyget_last. f_equal. rewrite knot_times_eq.
  unfold knot_times, vnth. rewrite Nat.add_1_r. cbn [nth]. rewrite app_nth2, Nat.sub_diag by lia. reflexivity.
Qed.

Lemma tk_fn : tk = map (vnth tk) (seq 0 (L + 1)).
Proof.
  apply (list_ext 0).
  - rewrite map_length, seq_length. apply (tk_length p knots ns LK).
  - intros i Hi. rewrite (tk_length p knots ns LK) in Hi. rewrite (nth_map' _ _ _ 0%nat), seq_nth by (rewrite ?seq_length; lia). reflexivity.
Qed.
Lemma knots_fn : knots = map (fun i => vnth tk (1 + i)) (seq 0 (L - 1)).
Proof.
  apply (list_ext 0).
  - rewrite map_length, seq_length. lia.
  - intros i Hi. rewrite (nth_map' _ _ _ 0%nat), seq_nth by (rewrite ?seq_length; lia). unfold vnth, knot_times. cbn [Nat.add nth].
    now rewrite app_nth1 by exact Hi.
Qed.

(** Any interpolation of the segments. *)
Section Rows.
Variables (r : ph_result) (Mo : nat) (xi ui : option string) (rf : nat -> R -> Res row) (good : nat -> R -> row -> Prop).
Hypothesis EM : (Mo =? 0)%nat = false.
Hypothesis EW : (mwidth (h_x r) mod Mo =? 0)%nat = true.
Hypothesis EN : h_n_segments r = L.
Hypothesis ET : h_t r = t.
Hypothesis EK : h_t_knot r = knots.
Hypothesis RF : forall s, (s < L)%nat -> forall m g,
  interpolation1 rr lg u_other hermite (sub_problem r s) Mo Mo xi ui m g
  = (let ts := match g with None => linspace (vnth tk s) (vnth tk (s + 1)) m | Some a => a end in
     if (2 <=? length ts)%nat then mapm (rf s) ts else Err ValueError).
Hypothesis RG : forall s, (s < L)%nat -> forall tau, exists d, rf s tau = Ok d /\ good s tau d.

Lemma sub_nth s : (s < L)%nat -> nth s (generate_sub_problems r) (sub_problem r s) = sub_problem r s.
Proof.
  intros Hs. unfold generate_sub_problems. rewrite EN. rewrite (nth_map' _ _ _ 0%nat), seq_nth by (rewrite ?seq_length; lia). reflexivity.
Qed.

Lemma tk_end : vnth tk L = ph_t_end p.
Proof. unfold vnth, knot_times. rewrite LK, Nat.add_1_r. cbn [nth]. rewrite app_nth2, Nat.sub_diag by lia. reflexivity. Qed.
Notation lens n := (in_len_from n 0 (map (searchsorted (linspace (ph_t_start p) (ph_t_end p) n)) knots)).
Lemma lens_eq n : lens n = in_len_from n 0 (map (fun i => searchsorted (linspace (vnth tk 0) (vnth tk L) n) (vnth tk (1 + i))) (seq 0 (L - 1))).
Proof. rewrite tk_end. f_equal. rewrite knots_fn at 1. rewrite map_map. apply map_ext. reflexivity. Qed.
Lemma reached n : (2 <= n)%nat -> (all_reached tk n <-> forall s, (s < L)%nat -> (2 <= nth s (lens n) 0)%nat).
Proof.
  intros Hn. unfold all_reached. cbv zeta. rewrite (tk_length p knots ns LK), Nat.add_sub, lens_eq.
  assert (W := fun s Hs => two_samples (vnth tk) L n ltac:(lia) Hn (fun s Hs => tk_lt p knots ns LK T GK s Hs) s Hs).
  split; intros H s Hs; apply W; try apply H; lia.
Qed.
Lemma samples n : (2 <= n)%nat -> all_reached tk n -> exists rows segs Tm,
  interpolation_ph rr lg u_other hermite r Mo Mo xi ui n None = Ok (rows, segs) /\ length segs = L /\
  sampled tk n good Tm rows /\ Tm 0%nat = ph_t_start p /\ Tm (n - 1)%nat = ph_t_end p.
Proof.
  intros Hn HR0. assert (HR := proj1 (reached n Hn) HR0). clear HR0.
  unfold interpolation_ph. rewrite ET. destruct t_ends as [E0 E1]. rewrite E0, E1. cbn [rbind]. rewrite EM, EW. cbn [negb].
  rewrite EN, EK, in_len_eq.
  destruct (mapm_choose (fun ii : nat => interpolation1 rr lg u_other hermite (nth ii (generate_sub_problems r) (sub_problem r ii)) Mo Mo xi ui
        (nth ii (lens n) 0%nat) None) (fun s rows => rows_on (vnth tk) good s (nth s (lens n) 0%nat) rows) 0%nat [] (seq 0 L)) as (interps & Ei & Li & Hi).
  { intros s Hs. apply in_seq in Hs. rewrite sub_nth, RF by lia. cbv zeta. rewrite linspace_length.
    rewrite (proj2 (Nat.leb_le _ _) (HR s ltac:(lia))).
    destruct (rows_total (rf s) (good s) (RG s ltac:(lia)) (linspace (vnth tk s) (vnth tk (s + 1)) (nth s (lens n) 0%nat))) as (ds & Ed & Ld & Hd).
    exists ds. split; [exact Ed|]. rewrite linspace_length in Ld, Hd. split; [exact Ld|]. exact Hd. }
  rewrite seq_length in Li, Hi.
  set (fl := mapm _ _). assert (EF : fl = Ok interps). { subst fl. rewrite <- Ei. apply mapm_ext. intros a _. reflexivity. }
  rewrite EF. cbn [rbind].
  assert (J : interps <> []) by (intros C; rewrite C in Li; cbn in Li; lia). apply join_eq in J. rewrite Li in J. rewrite J.
  destruct (all_samples (vnth tk) L n good ltac:(lia) Hn (fun s Hs => tk_lt p knots ns LK T GK s Hs) interps Li) as (Tm & HSm & H0 & H1).
  { intros s Hs. specialize (Hi s Hs). rewrite seq_nth in Hi by exact Hs. cbn [Nat.add] in Hi. rewrite lens_eq in Hi. exact Hi. }
  exists (join interps), interps, Tm. split; [reflexivity|]. split; [exact Li|].
  rewrite <- tk_fn in HSm. split; [exact HSm|]. split; [exact H0|]. rewrite <- tk_end. apply H1.
  destruct (Nat.eq_dec L 1) as [|NE]; [now left|]. right.
  specialize (HR (L - 1)%nat ltac:(lia)). rewrite lens_eq in HR.
  assert (X := in_len_nth (vnth tk) L n ltac:(lia) Hn (L - 1)%nat 0%nat 0%nat (L - 1)%nat (le_n _)). cbn [Nat.add] in X, HR. rewrite X in HR. cbv zeta in HR.
  rewrite Nat.ltb_irrefl in HR. destruct (Nat.eqb_spec (L - 1) 0) as [|_]; [lia|]. lia.
Qed.
Lemma refused n : (2 <= n)%nat -> ~ all_reached tk n -> exists e,
  interpolation_ph rr lg u_other hermite r Mo Mo xi ui n None = Err e.
Proof.
  intros Hn HR. unfold interpolation_ph. rewrite ET. destruct t_ends as [E0 E1]. rewrite E0, E1. cbn [rbind]. rewrite EM, EW. cbn [negb].
  rewrite EN, EK, in_len_eq.
  match goal with |- exists e, (do _ <- ?x; _) = _ => destruct x as [interps|e] eqn:Ei; cbn [rbind]; [|eexists; reflexivity] end.
  exfalso. apply HR. apply (proj2 (reached n Hn)). intros s Hs.
  apply PwInterpProofs.mapm_ok in Ei. destruct Ei as [_ HI]. rewrite seq_length in HI. specialize (HI s 0%nat [] Hs).
  rewrite seq_nth in HI by exact Hs. cbn [Nat.add rbind] in HI. rewrite sub_nth, RF in HI by exact Hs. cbv zeta in HI. rewrite linspace_length in HI.
  destruct (Nat.leb_spec 2 (nth s (lens n) 0%nat)) as [|_]; [assumption|discriminate].
Qed.

(** The times given for each segment. *)
Lemma samples_given n (g : list vec) : length g = L -> Forall (fun ts => (2 <= length ts)%nat) g -> exists segs,
  interpolation_ph rr lg u_other hermite r Mo Mo xi ui n (Some g) = Ok (concat segs, segs) /\ length segs = L /\
  forall s, (s < L)%nat -> length (nth s segs []) = length (nth s g []) /\
    forall i, (i < length (nth s g []))%nat -> good s (vnth (nth s g []) i) (nth i (nth s segs []) []).
Proof.
  intros Hg HG. rewrite Forall_forall in HG. unfold interpolation_ph. rewrite ET. destruct t_ends as [E0 E1]. rewrite E0, E1. cbn [rbind]. rewrite EM, EW. cbn [negb].
  rewrite EN.
  destruct (mapm_choose (fun ii : nat => do gg <- (do a <- pyget g (Z.of_nat ii); Ok (Some a));
      interpolation1 rr lg u_other hermite (nth ii (generate_sub_problems r) (sub_problem r ii)) Mo Mo xi ui
        (nth ii (in_len (length (concat g)) (linspace (ph_t_start p) (ph_t_end p) (length (concat g))) (h_t_knot r)) 0%nat) gg)
      (fun s rows => length rows = length (nth s g []) /\ forall i, (i < length (nth s g []))%nat -> good s (vnth (nth s g []) i) (nth i rows []))
      0%nat [] (seq 0 L)) as (segs & Es & Ls & Hs).
  { intros s Hs. apply in_seq in Hs. rewrite (pyget_nat g s []) by lia. cbn [rbind]. rewrite sub_nth, RF by lia. cbv zeta.
    rewrite (proj2 (Nat.leb_le _ _) (HG (nth s g []) ltac:(apply nth_In; lia))).
    destruct (rows_total (rf s) (good s) (RG s ltac:(lia)) (nth s g [])) as (ds & Ed & Ld & Hd). exists ds. auto. }
  rewrite seq_length in Ls, Hs. exists segs. rewrite Es. cbn [rbind]. split; [|split; [exact Ls|]].
  - f_equal. f_equal. assert (N : segs <> []) by (intros C; rewrite C in Ls; cbn in Ls; lia).
    rewrite <- Ls. clear - N. induction segs as [|a [|b q] IH]; [congruence|cbn; now rewrite app_nil_r|].
    change (length (a :: b :: q) - 1)%nat with (S (length q)). cbn [seq map concat]. rewrite <- seq_shift, map_map, <- app_assoc.
    change (nth 0 (a :: b :: q) []) with a. f_equal.
    change (nth (S (length q)) (a :: b :: q) []) with (nth (length q) (b :: q) []).
    change (b ++ concat q) with (concat (b :: q)). rewrite <- IH by discriminate. replace (length (b :: q) - 1)%nat with (length q) by (cbn [length]; lia). reflexivity.
  - intros s H. specialize (Hs s H). rewrite seq_nth in Hs by exact H. exact Hs.
Qed.
End Rows.
End Join.
