(** The samples of a problem with several segments. *)
From Coq Require Import String.
From Verif Require Import Prelude PreludeFacts Poly PolyInterp Mat MatFacts JacobiFacts PwModel PwInterpModel PsModel PsSpec BuTdModel BuTdSpec
  PhModel PhSpec PhProofs AnalysisModel AnalysisSpec AnalysisProofs.
Open Scope R_scope.
Open Scope list_scope.

Lemma linspace_length a b n : length (linspace a b n) = n.
Proof. unfold linspace. now rewrite map_length, seq_length. Qed.
Lemma vnth_linspace a b n i : (i < n)%nat -> vnth (linspace a b n) i = a + INR i * ((b - a) / INR (n - 1)).
Proof. intros H. unfold linspace. now rewrite vnth_map_seq. Qed.
Lemma linspace_first a b n : (1 <= n)%nat -> vnth (linspace a b n) 0 = a.
Proof. intros H. rewrite vnth_linspace by lia. cbn [INR]. ring. Qed.
Lemma linspace_last a b n : (2 <= n)%nat -> vnth (linspace a b n) (n - 1) = b.
Proof.
  intros H. rewrite vnth_linspace by lia. assert (0 < INR (n - 1)) by (apply lt_0_INR; lia). field. lra.
Qed.
Lemma linspace_lt a b n i j : a < b -> (i < j < n)%nat -> vnth (linspace a b n) i < vnth (linspace a b n) j.
Proof.
  intros H Hi. rewrite !vnth_linspace by lia. assert (0 < INR (n - 1)) by (apply lt_0_INR; lia).
  assert (0 < (b - a) / INR (n - 1)) by (apply Rdiv_lt_0_compat; lra). assert (INR i < INR j) by (apply lt_INR; lia). nra.
Qed.
Lemma linspace_bounds a b n i : a < b -> (i < n)%nat -> a <= vnth (linspace a b n) i <= b.
Proof.
  intros H Hi. destruct (Nat.eq_dec n 1) as [->|N].
  - replace i with 0%nat by lia. rewrite linspace_first by lia. lra.
  - split.
    + destruct i as [|i]; [rewrite linspace_first by lia; lra|].
      rewrite <- (linspace_first a b n) at 1 by lia. apply Rlt_le, linspace_lt; [exact H|lia].
    + destruct (Nat.eq_dec i (n - 1)) as [->|]; [rewrite linspace_last by lia; lra|].
      rewrite <- (linspace_last a b n) at 2 by lia. apply Rlt_le, linspace_lt; [exact H|lia].
Qed.
Lemma linspace_below a b n i : a < b -> (i + 1 < n)%nat -> vnth (linspace a b n) i < b.
Proof.
  intros H Hi. rewrite <- (linspace_last a b n) at 2 by lia. apply linspace_lt; [exact H|lia].
Qed.

(** ** Where the knots are among the times *)
Lemma filter_prefix (ts : vec) k j : increasing ts -> (j <= length ts)%nat ->
  (forall i, (i < j)%nat -> vnth ts i < k) -> (forall i, (j <= i < length ts)%nat -> k <= vnth ts i) -> searchsorted ts k = j.
Proof.
  unfold searchsorted. revert j. induction ts as [|t ts IH]; intros j I L A B.
  - cbn in L. cbn. lia.
  - destruct j as [|j].
    + cbn [filter]. destruct (Rlt_dec t k) as [C|C].
      * specialize (B 0%nat ltac:(cbn [length]; lia)). unfold vnth in B; cbn [nth] in B. lra.
      * apply IH; [now apply (increasing_tl t)|lia|intros; lia|].
        intros i Hi. apply (B (S i)). cbn [length]. lia.
    + cbn [filter]. destruct (Rlt_dec t k) as [C|C].
      * cbn [length]. f_equal. apply IH; [now apply (increasing_tl t)|cbn [length] in L; lia| |].
        -- intros i Hi. apply (A (S i)). lia.
        -- intros i Hi. apply (B (S i)). cbn [length]. lia.
      * exfalso. apply C. apply (A 0%nat). lia.
Qed.
Lemma searchsorted_spec (ts : vec) k : increasing ts -> (searchsorted ts k <= length ts)%nat /\
  (forall i, (i < searchsorted ts k)%nat -> vnth ts i < k) /\
  (forall i, (searchsorted ts k <= i < length ts)%nat -> k <= vnth ts i).
Proof.
  intros I.
  assert (X : exists j, (j <= length ts)%nat /\ (forall i, (i < j)%nat -> vnth ts i < k) /\
    (forall i, (j <= i < length ts)%nat -> k <= vnth ts i)).
  { clear - I. induction ts as [|t ts IH].
    - exists 0%nat. cbn. split; [lia|]. split; intros; lia.
    - destruct (IH (increasing_tl _ _ I)) as (j & L & A & B). destruct (Rlt_dec t k) as [C|C].
      + exists (S j). cbn [length]. split; [lia|]. split.
        * intros [|i] Hi; [exact C|]. apply A. lia.
        * intros [|i] Hi; [lia|]. apply B. lia.
      + exists 0%nat. split; [lia|]. split; [intros; lia|]. intros [|i] Hi.
        * unfold vnth; cbn [nth]. lra.
        * assert (J := I 0%nat (S i) ltac:(lia)). unfold vnth in *. cbn [nth] in *. lra. }
  destruct X as (j & L & A & B). rewrite (filter_prefix ts k j I L A B). auto.
Qed.
Lemma searchsorted_mono (ts : vec) k k' : increasing ts -> k <= k' -> (searchsorted ts k <= searchsorted ts k')%nat.
Proof.
  intros I L. destruct (searchsorted_spec ts k I) as (A & B & _). destruct (searchsorted_spec ts k' I) as (A' & _ & C').
  destruct (Nat.le_gt_cases (searchsorted ts k) (searchsorted ts k')) as [|G]; [assumption|].
  specialize (B (searchsorted ts k') G). specialize (C' (searchsorted ts k') ltac:(lia)). lra.
Qed.
Lemma linspace_increasing a b n : a < b -> increasing (linspace a b n).
Proof. intros H i j Hi. rewrite linspace_length in Hi. apply linspace_lt; assumption. Qed.

(** ** Joining the arrays of the segments *)
Fixpoint join {A} (l : list (list A)) : list A :=
  match l with
  | [] => []
  | a :: r => match r with [] => a | _ => butlastn 1 a ++ join r end
  end.
Lemma join_eq {A} (l : list (list A)) : l <> [] ->
  concat (map (fun ii => butlastn 1 (nth ii l [])) (seq 0 (length l - 1))) ++ nth (length l - 1) l [] = join l.
Proof.
  induction l as [|a [|b r] IH]; intros N; [congruence|reflexivity|].
  change (length (a :: b :: r) - 1)%nat with (S (length r)). cbn [seq map concat].
  rewrite <- seq_shift, map_map. rewrite <- app_assoc. change (nth 0 (a :: b :: r) []) with a.
  change (nth (S (length r)) (a :: b :: r) []) with (nth (length r) (b :: r) []).
  change (join (a :: b :: r)) with (butlastn 1 a ++ join (b :: r)). f_equal.
  rewrite <- IH by discriminate. replace (length (b :: r) - 1)%nat with (length r) by (cbn [length]; lia). reflexivity.
Qed.
Lemma butlast1 {A} (l : list A) : butlastn 1 l = firstn (length l - 1) l.
Proof. reflexivity. Qed.

Lemma increasing_app l1 l2 : increasing l1 -> increasing l2 -> (forall a b, In a l1 -> In b l2 -> a < b) -> increasing (l1 ++ l2).
Proof.
  intros A B C i j H. rewrite app_length in H. unfold vnth. destruct (Nat.lt_ge_cases j (length l1)) as [J|J].
  - rewrite !app_nth1 by lia. apply A. lia.
  - destruct (Nat.lt_ge_cases i (length l1)) as [I|I].
    + rewrite (app_nth1 l1 l2 0 I), (app_nth2 l1 l2 0 J). apply C; apply nth_In; lia.
    + rewrite (app_nth2 l1 l2 0 I), (app_nth2 l1 l2 0 J). apply B. lia.
Qed.

Section Sampling.
Variables (K : nat -> R) (L n : nat) (good : nat -> R -> row -> Prop).
Hypothesis HL : (1 <= L)%nat.
Hypothesis HN : (2 <= n)%nat.
Hypothesis KI : forall s, (s < L)%nat -> K s < K (s + 1)%nat.
Let ts := linspace (K 0) (K L) n.
Definition rows_on (s m : nat) (rows : list row) : Prop :=
  length rows = m /\ forall i, (i < m)%nat -> good s (vnth (linspace (K s) (K (s + 1)) m) i) (nth i rows []).

Lemma K_lt s s' : (s < s' <= L)%nat -> K s < K s'.
Proof.
  intros [A B]. induction s' as [|s' IH]; [lia|]. destruct (Nat.eq_dec s s') as [->|].
  - rewrite <- Nat.add_1_r. apply KI. lia.
  - apply Rlt_trans with (K s'); [apply IH; lia|]. rewrite <- (Nat.add_1_r s'). apply KI. lia.
Qed.
Let H0 : K 0 < K L. Proof. apply K_lt. lia. Qed.
Let ss (s : nat) : nat := searchsorted ts (K s).
Lemma ss_mono s s' : (s <= s' <= L)%nat -> (ss s <= ss s')%nat.
Proof.
  intros H. apply searchsorted_mono; [now apply linspace_increasing|].
  destruct (Nat.eq_dec s s') as [->|]; [lra|]. apply Rlt_le, K_lt. lia.
Qed.
Lemma ss_bound s : (s <= L)%nat -> (ss s <= n - 1)%nat.
Proof.
  intros Hs. unfold ss. destruct (searchsorted_spec ts (K s) (linspace_increasing _ _ _ H0)) as (A & B & _).
  unfold ts in A. rewrite linspace_length in A. fold ts in A.
  destruct (Nat.le_gt_cases (searchsorted ts (K s)) (n - 1)) as [|G]; [assumption|].
  specialize (B (n - 1)%nat ltac:(lia)). unfold ts in B. rewrite linspace_last in B by exact HN.
  destruct (Nat.eq_dec s L) as [->|]; [lra|]. assert (K s < K L) by (apply K_lt; lia). lra.
Qed.
Lemma ss_pos s : (1 <= s <= L)%nat -> (1 <= ss s)%nat.
Proof.
  intros Hs. unfold ss. destruct (searchsorted_spec ts (K s) (linspace_increasing _ _ _ H0)) as (_ & _ & C).
  destruct (searchsorted ts (K s)) as [|j] eqn:E; [|lia].
  specialize (C 0%nat). unfold ts in C. rewrite linspace_length in C. specialize (C ltac:(lia)).
  rewrite linspace_first in C by lia. assert (K 0 < K s) by (apply K_lt; lia). lra.
Qed.
(** Number of samples of each segment. *)
Lemma in_len_nth : forall k s0 prev s, (s <= k)%nat ->
  nth s (in_len_from n prev (map (fun i => ss (s0 + 1 + i)) (seq 0 k))) 0%nat =
  (let j := if (s =? 0)%nat then prev else ss (s0 + s) in
   if (s <? k)%nat then ss (s0 + s + 1) - j + 1 else n - j)%nat.
Proof.
  induction k as [|k IH]; intros s0 prev s Hs.
  - replace s with 0%nat by lia. reflexivity.
  - cbn [seq map in_len_from]. destruct s as [|s].
    + cbn [nth Nat.eqb Nat.ltb Nat.leb]. cbv zeta. rewrite !Nat.add_0_r. reflexivity.
    + cbn [nth]. rewrite <- seq_shift, map_map.
      rewrite (map_ext _ (fun i => ss (S s0 + 1 + i))) by (intros i; f_equal; lia).
      rewrite IH by lia. cbv zeta. cbn [Nat.eqb]. replace (S s <? S k)%nat with (s <? k)%nat by reflexivity.
      destruct s as [|s]; cbn [Nat.eqb].
      * replace (S s0 + 0 + 1)%nat with (s0 + 1 + 1)%nat by lia. replace (s0 + 1 + 0)%nat with (s0 + 1)%nat by lia. reflexivity.
      * replace (S s0 + S s)%nat with (s0 + S (S s))%nat by lia. reflexivity.
Qed.
Lemma ss_0 : ss 0 = 0%nat.
Proof.
  unfold ss. destruct (searchsorted_spec ts (K 0) (linspace_increasing _ _ _ H0)) as (_ & B & _).
  destruct (searchsorted ts (K 0)) as [|j]; [reflexivity|]. specialize (B 0%nat ltac:(lia)). unfold ts in B. rewrite linspace_first in B by lia. lra.
Qed.
Lemma ss_L : ss L = (n - 1)%nat.
Proof.
  assert (A := ss_bound L (le_n L)). unfold ss in *.
  destruct (searchsorted_spec ts (K L) (linspace_increasing _ _ _ H0)) as (_ & _ & C).
  destruct (Nat.le_gt_cases (n - 1) (searchsorted ts (K L))) as [|G]; [lia|].
  assert (LT : length ts = n) by apply linspace_length. specialize (C (searchsorted ts (K L)) ltac:(lia)).
  assert (X := linspace_below (K 0) (K L) n (searchsorted ts (K L)) H0 ltac:(lia)). fold ts in X. lra.
Qed.
Lemma two_samples s : (s < L)%nat ->
  ((2 <= nth s (in_len_from n 0 (map (fun i => ss (1 + i)) (seq 0 (L - 1)))) 0%nat)%nat <->
   exists m, (m < n)%nat /\ K s <= K 0%nat + INR m * ((K L - K 0%nat) / INR (n - 1)) < K (s + 1)%nat).
Proof.
  intros Hs. assert (EN := in_len_nth (L - 1) 0 0 s ltac:(lia)). cbn [Nat.add] in EN |- *. rewrite EN. clear EN. cbv zeta.
  assert (EJ : (if (s =? 0)%nat then 0%nat else ss s) = ss s).
  { destruct (Nat.eqb_spec s 0) as [->|]; [now rewrite ss_0|reflexivity]. }
  rewrite EJ.
  assert (EL : (if (s <? L - 1)%nat then ss (s + 1) - ss s + 1 else n - ss s)%nat = (ss (s + 1) - ss s + 1)%nat).
  { destruct (Nat.ltb_spec s (L - 1)) as [|G]; [reflexivity|]. replace (s + 1)%nat with L by lia. rewrite ss_L.
    assert (A := ss_bound s ltac:(lia)). lia. }
  rewrite EL.
  destruct (searchsorted_spec ts (K s) (linspace_increasing _ _ _ H0)) as (A1 & A2 & A3).
  destruct (searchsorted_spec ts (K (s + 1)%nat) (linspace_increasing _ _ _ H0)) as (B1 & B2 & B3).
  fold (ss s) in *. fold (ss (s + 1)) in *. assert (LT : length ts = n) by apply linspace_length. rewrite LT in *.
  split.
  - intros H. exists (ss s). assert (X := ss_bound (s + 1) ltac:(lia)). split; [lia|].
    specialize (A3 (ss s) ltac:(lia)). specialize (B2 (ss s) ltac:(lia)). unfold ts in A3, B2. rewrite vnth_linspace in A3, B2 by lia. lra.
  - intros (m & Hm & H). rewrite <- vnth_linspace in H by exact Hm. fold ts in H.
    destruct (Nat.le_gt_cases (ss (s + 1)) m) as [G|G]; [specialize (B3 m ltac:(lia)); lra|].
    destruct (Nat.le_gt_cases (ss s) m) as [G2|G2]; [lia|]. specialize (A2 m ltac:(lia)). lra.
Qed.

Definition sample := (nat * R * row)%type.
Definition s_seg (x : sample) := fst (fst x).
Definition s_time (x : sample) := snd (fst x).
Definition s_row (x : sample) := snd x.
Definition seg_samples (s m : nat) (rows : list row) : list sample :=
  map (fun i => (s, vnth (linspace (K s) (K (s + 1)) m) i, nth i rows [])) (seq 0 m).
Lemma seg_samples_rows s m rows : length rows = m -> map s_row (seg_samples s m rows) = rows.
Proof.
  intros <-. unfold seg_samples. rewrite map_map. cbn [s_row snd].
  apply nth_ext with (d := []) (d' := []); [now rewrite map_length, seq_length|].
  intros i Hi. rewrite map_length, seq_length in Hi. rewrite (nth_map' _ _ _ 0%nat) by now rewrite seq_length.
  now rewrite seq_nth.
Qed.
Definition sample_ok (x : sample) : Prop :=
  (s_seg x < L)%nat /\ K (s_seg x) <= s_time x <= K (s_seg x + 1)%nat /\
  (s_time x = K (s_seg x + 1)%nat -> (s_seg x + 1 = L)%nat) /\ good (s_seg x) (s_time x) (s_row x).

(** The samples of segments s0, ..., L - 1. *)
Lemma tail_samples : forall k s0 interps, (s0 + k + 1 = L)%nat -> length interps = (k + 1)%nat ->
  (forall i, (i <= k)%nat ->
     rows_on (s0 + i) (nth i (in_len_from n (if s0 =? 0 then 0 else ss s0)%nat (map (fun i => ss (s0 + 1 + i)) (seq 0 k))) 0%nat) (nth i interps [])) ->
  exists l, join interps = map s_row l /\ length l = (n - if s0 =? 0 then 0 else ss s0)%nat /\
    increasing (map s_time l) /\ Forall sample_ok l /\ Forall (fun x => K s0 <= s_time x) l /\
    s_time (nth (length l - 1) l (0%nat, 0, [])) =
      vnth (linspace (K (L - 1)) (K L) (n - if (L - 1 =? 0) then 0 else ss (L - 1))%nat) (n - (if (L - 1 =? 0) then 0 else ss (L - 1)) - 1)%nat /\
    (1 <= length l)%nat /\
    ((k = 0 \/ (if s0 =? 0 then 0 else ss s0) < ss (s0 + 1))%nat -> s_time (nth 0 l (0%nat, 0, [])) = K s0).
Proof.
  induction k as [|k IH]; intros s0 interps E LI H.
  - destruct interps as [|a [|b r]]; cbn [length] in LI; try lia. cbn [join].
    specialize (H 0%nat ltac:(lia)). cbn [seq map in_len_from nth] in H. rewrite Nat.add_0_r in H.
    replace (L - 1)%nat with s0 by lia. replace (K L) with (K (s0 + 1)%nat) by (f_equal; lia).
    set (j := (if s0 =? 0 then 0 else ss s0)%nat) in *.
    assert (J : (j <= n - 1)%nat) by (unfold j; destruct (s0 =? 0)%nat; [lia|apply ss_bound; lia]).
    destruct H as [LR G].
    exists (seg_samples s0 (n - j) a). rewrite seg_samples_rows by exact LR.
    assert (LL : length (seg_samples s0 (n - j) a) = (n - j)%nat) by (unfold seg_samples; now rewrite map_length, seq_length).
    split; [reflexivity|]. split; [exact LL|].
    assert (KK : K s0 < K (s0 + 1)%nat) by (apply KI; lia).
    split; [|split; [|split; [|split; [|split]]]].
    + intros i i' Hi. rewrite map_length, LL in Hi. unfold seg_samples. rewrite map_map. cbn [s_time fst snd].
      rewrite !vnth_map_seq by lia. apply linspace_lt; [exact KK|lia].
    + apply Forall_forall. intros x X. apply in_map_iff in X. destruct X as (i & <- & X). apply in_seq in X.
      unfold sample_ok. cbn [s_seg s_time s_row fst snd]. split; [lia|].
      split; [apply linspace_bounds; [exact KK|lia]|]. split; [intros _; lia|]. apply G. lia.
    + apply Forall_forall. intros x X. apply in_map_iff in X. destruct X as (i & <- & X). apply in_seq in X.
      cbn [s_time fst snd]. apply linspace_bounds; [exact KK|lia].
    + rewrite LL. unfold seg_samples. rewrite (nth_map' _ _ _ 0%nat) by (rewrite seq_length; lia). rewrite seq_nth by lia. reflexivity.
    + rewrite LL. lia.
    + intros _. unfold seg_samples. rewrite (nth_map' _ _ _ 0%nat) by (rewrite seq_length; lia). rewrite seq_nth by lia.
      cbn [s_time fst snd]. apply linspace_first. lia.
  - destruct interps as [|a interps]; cbn [length] in LI; [lia|].
    assert (HA := H 0%nat ltac:(lia)). cbn [seq map in_len_from nth] in HA. rewrite !Nat.add_0_r in HA.
    set (j := (if s0 =? 0 then 0 else ss s0)%nat) in *.
    assert (J : (j <= ss (s0 + 1))%nat) by (unfold j; destruct (s0 =? 0)%nat; [lia|apply ss_mono; lia]).
    assert (J1 : (ss (s0 + 1) <= n - 1)%nat) by (apply ss_bound; lia).
    destruct (IH (s0 + 1)%nat interps) as (l & EL & LL & IN & OKL & GE & LAST & POS & _); [lia|lia| |].
    { intros i Hi. specialize (H (S i) ltac:(lia)). cbn [seq map in_len_from nth] in H.
      rewrite <- seq_shift, map_map in H.
      replace (s0 + 1 =? 0)%nat with false by (symmetry; apply Nat.eqb_neq; lia).
      replace (s0 + 1 + i)%nat with (s0 + S i)%nat by lia.
      rewrite (map_ext (fun i => ss (s0 + 1 + 1 + i)) (fun x => ss (s0 + 1 + S x))) by (intros; f_equal; lia).
      rewrite Nat.add_0_r in H. exact H. }
    replace (s0 + 1 =? 0)%nat with false in LL by (symmetry; apply Nat.eqb_neq; lia).
    destruct HA as [LR G]. set (m := (ss (s0 + 1) - j + 1)%nat) in *.
    exists (firstn (m - 1) (seg_samples s0 m a) ++ l).
    assert (LS : length (seg_samples s0 m a) = m) by (unfold seg_samples; now rewrite map_length, seq_length).
    assert (KK : K s0 < K (s0 + 1)%nat) by (apply KI; lia).
    assert (FS : forall x, In x (firstn (m - 1) (seg_samples s0 m a)) -> exists i, (i + 1 < m)%nat /\
      x = (s0, vnth (linspace (K s0) (K (s0 + 1)) m) i, nth i a [])).
    { intros x X. unfold seg_samples in X. rewrite firstn_map in X. apply in_map_iff in X. destruct X as (i & <- & X).
      exists i. split; [|reflexivity].
      apply (In_nth _ _ 0%nat) in X. destruct X as (q & Hq & E'). rewrite firstn_length, seq_length in Hq.
      rewrite nth_firstn in E' by lia. rewrite seq_nth in E' by lia.
      clear - Hq E'. clearbody m. destruct (Nat.ltb_spec q (m - 1)); lia. }
    split; [|split; [|split; [|split; [|split; [|split; [|split]]]]]].
    + destruct interps as [|b r]; [cbn [length] in LI; lia|]. change (join (a :: b :: r)) with (butlastn 1 a ++ join (b :: r)).
      rewrite EL, map_app. f_equal. rewrite butlast1, <- firstn_map, seg_samples_rows by exact LR. now rewrite LR.
    + rewrite app_length, firstn_length, LS, LL. unfold m. lia.
    + rewrite map_app. apply increasing_app; [|exact IN|].
      * intros i i' Hi. rewrite map_length, firstn_length, LS in Hi. rewrite <- firstn_map. rewrite !vnth_firstn by lia.
        unfold seg_samples. rewrite map_map. cbn [s_time fst snd].
        rewrite !vnth_map_seq by lia.
        destruct (Nat.ltb_spec i (m - 1)); [|lia]. destruct (Nat.ltb_spec i' (m - 1)); [|lia].
        rewrite !Nat.add_0_l. apply linspace_lt; [exact KK|lia].
      * intros x y X Y. apply in_map_iff in X, Y. destruct X as (x' & <- & X), Y as (y' & <- & Y).
        apply FS in X. destruct X as (i & Hi & ->). rewrite Forall_forall in GE. specialize (GE _ Y).
        cbn [s_time fst snd]. apply Rlt_le_trans with (K (s0 + 1)%nat); [|exact GE]. apply linspace_below; assumption.
    + apply Forall_app. split; [|exact OKL]. apply Forall_forall. intros x X. apply FS in X. destruct X as (i & Hi & ->).
      unfold sample_ok. cbn [s_seg s_time s_row fst snd]. split; [lia|].
      assert (B := linspace_below (K s0) (K (s0 + 1)) m i KK Hi). assert (B' := linspace_bounds (K s0) (K (s0 + 1)) m i KK ltac:(lia)).
      split; [lra|]. split; [intros; lra|]. apply G. lia.
    + apply Forall_app. split.
      * apply Forall_forall. intros x X. apply FS in X. destruct X as (i & Hi & ->). cbn [s_time fst snd].
        apply linspace_bounds; [exact KK|lia].
      * eapply Forall_impl; [|exact GE]. cbn beta. intros x X. lra.
    + rewrite app_length, app_nth2 by lia. rewrite <- LAST. do 2 f_equal. lia.
    + rewrite app_length. lia.
    + intros [?|C]; [lia|]. rewrite app_nth1 by (rewrite firstn_length, LS; lia).
      assert (X : In (nth 0 (firstn (m - 1) (seg_samples s0 m a)) (0%nat, 0, [])) (firstn (m - 1) (seg_samples s0 m a)))
        by (apply nth_In; rewrite firstn_length, LS; lia).
      rewrite nth_firstn. destruct (Nat.ltb_spec 0 (m - 1)); [|lia]. unfold seg_samples. rewrite (nth_map' _ _ _ 0%nat) by (rewrite seq_length; lia). rewrite seq_nth by lia.
      cbn [s_time fst snd]. apply linspace_first. lia.
Qed.

Lemma all_samples interps : length interps = L ->
  (forall s, (s < L)%nat ->
     rows_on s (nth s (in_len_from n 0 (map (fun i => ss (1 + i)) (seq 0 (L - 1)))) 0%nat) (nth s interps [])) ->
  exists T, sampled (map K (seq 0 (L + 1))) n good T (join interps) /\ T 0%nat = K 0%nat /\
    ((L = 1 \/ ss (L - 1) + 2 <= n)%nat -> T (n - 1)%nat = K L).
Proof.
  intros LI H. destruct (tail_samples (L - 1) 0 interps) as (l & EL & LL & IN & OKL & GE & LAST & POS & FIRST); [lia|lia| |].
  { intros i Hi. apply H. lia. }
  cbn [Nat.eqb] in LL, FIRST. rewrite Nat.sub_0_r in LL.
  exists (fun m => s_time (nth m l (0%nat, 0, []))).
  assert (VT : forall m, (m < n)%nat -> vnth (map s_time l) m = s_time (nth m l (0%nat, 0, []))).
  { intros m Hm. unfold vnth. rewrite (nth_map' _ _ _ ((0%nat, 0, []) : sample)) by lia. reflexivity. }
  assert (NK : forall s, (s <= L)%nat -> vnth (map K (seq 0 (L + 1))) s = K s).
  { intros s Hs. rewrite vnth_map_seq by lia. reflexivity. }
  split; [|split].
  - split; [|split].
    + now rewrite EL, map_length.
    + intros m Hm. rewrite <- !VT by lia. apply IN. rewrite map_length. lia.
    + intros m Hm. assert (X : In (nth m l (0%nat, 0, [])) l) by (apply nth_In; lia).
      rewrite Forall_forall in OKL. specialize (OKL _ X). destruct OKL as (A & B & C & D).
      exists (s_seg (nth m l (0%nat, 0, []))). rewrite map_length, seq_length.
      rewrite !NK by lia. split; [lia|]. split; [exact B|]. split; [intros F; specialize (C F); lia|].
      rewrite EL. rewrite (nth_map' _ _ _ ((0%nat, 0, []) : sample)) by lia. exact D.
  - apply FIRST. right. assert (A := ss_pos 1 ltac:(lia)). exact A.
  - intros C. rewrite LL in LAST. rewrite LAST.
    assert (J : ((if L - 1 =? 0 then 0 else ss (L - 1)) + 2 <= n)%nat).
    { destruct (Nat.eqb_spec (L - 1) 0) as [|NE]; lia. }
    apply linspace_last. lia.
Qed.
End Sampling.
