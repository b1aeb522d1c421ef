(** Stored results: histories with crashes and several processes. *)
From Coq Require Import String List Arith Bool Lia.
From Verif Require Import Prelude StoreModel StoreSpec StoreProofs.
Import ListNotations.
Open Scope nat_scope.
Open Scope list_scope.

Section Hist.
  Variable V : Type.
  Variable none : V.
  Variable py_eq : V -> V -> bool.
  Variable hashable : V -> bool.
  Variable dumps : dict V -> list nat * bool.
  Variable loads : list nat -> option (loaded V).
  Notation step := (step V py_eq hashable dumps loads).
  Notation happens := (happens V none py_eq hashable dumps loads).
  Notation history := (history V none py_eq hashable dumps loads).
  Variable K : func V -> Prop.
  Hypothesis PK : pickle_ok V dumps loads.
  Hypothesis DN : different_names V K.
  Hypothesis HK : forall f, K f -> proper V f /\ respects_eq V py_eq f.

  Definition key_fine (p : proc V) : Prop :=
    K (p_func V p) /\ bind V (p_func V p) (p_args V p) = Ok (p_key V p).
  Definition at_fine (p : proc V) : Prop :=
    match p_at V p with
    | W_call _ d => right V (p_func V p) d
    | W_open _ d r => right V (p_func V p) d /\ call_func V (p_func V p) (p_args V p) = Ok r
    | W_write _ _ _ _ r => call_func V (p_func V p) (p_args V p) = Ok r
    | _ => True
    end.
  Definition log_fine (l : list (func V * args V * outcome V)) : Prop :=
    forall f a v, In (f, a, Returned V v) l -> call_func V f a = Ok v.

  (** What a file gives is right, whatever it is. *)
  Definition reads_right (f : func V) (o : option (list nat)) : Prop :=
    match o with
    | None => True
    | Some c => match loads c with Some (L_dict _ d) => right V f d | _ => True end
    end.

  Lemma step_fine n s p : key_fine p -> at_fine p -> reads_right (p_func V p) (fs_file s (f_name V (p_func V p))) ->
    match snd (step n s p) with
    | inl q => key_fine q /\ at_fine q /\ p_func V q = p_func V p
    | inr (Returned _ v) => call_func V (p_func V p) (p_args V p) = Ok v
    | inr (Raised _ _) => True
    end.
  Proof.
    intros [KF HB] AF RR. destruct (HK _ KF) as [PF RE].
    assert (GO : forall w, p_func V {| p_func := p_func V p; p_args := p_args V p; p_key := p_key V p; p_at := w |} = p_func V p) by reflexivity.
    unfold StoreModel.step, at_fine in *. destruct (p_at V p) as [| | | |d|d r|off rest g r] eqn:EA; cbn [snd go].
    - destruct (fs_dir s); repeat split; auto.
    - destruct (fs_dir s); [exact I|]. repeat split; auto.
    - destruct (fs_file s (f_name V (p_func V p))); repeat split; auto. constructor.
    - destruct (fs_file s (f_name V (p_func V p))) as [b|]; [|exact I]. cbn [reads_right] in RR.
      destruct (loads b) as [[d|]|]; try exact I. destruct (negb _); [exact I|].
      destruct (lookup V py_eq d (p_key V p)) as [r|] eqn:LK.
      + cbn [snd]. unfold call_func. rewrite HB. cbn [rbind]. exact (lookup_right V py_eq _ d _ r RE RR LK).
      + cbn [snd go]. repeat split; auto.
    - destruct (call_func V (p_func V p) (p_args V p)) as [r|e] eqn:EC; [|exact I].
      destruct (forallb hashable (p_key V p)); [|exact I]. cbn [snd go]. repeat split; auto.
      apply update_right; auto. unfold call_func in EC. rewrite HB in EC. exact EC.
    - destruct AF as [_ AF]. repeat split; auto.
    - destruct rest; [destruct g; [exact AF|exact I]|]. repeat split; auto.
  Qed.
  Lemma step_other n s p : forall m, m <> f_name V (p_func V p) -> fs_file (fst (step n s p)) m = fs_file s m.
  Proof.
    intros m Hm. unfold StoreModel.step. destruct (p_at V p) as [| | | |d|d r|off rest g r]; cbn [fst].
    - reflexivity.
    - destruct (fs_dir s); reflexivity.
    - reflexivity.
    - destruct (fs_file s (f_name V (p_func V p))) as [b|]; [|reflexivity]. destruct (loads b) as [[d|]|]; try reflexivity.
      destruct (negb _); [reflexivity|]. destruct (lookup V py_eq d (p_key V p)); reflexivity.
    - destruct (call_func V (p_func V p) (p_args V p)) as [r|e]; [|reflexivity]. destruct (forallb hashable (p_key V p)); reflexivity.
    - now apply file_set_other.
    - destruct rest; [reflexivity|]. cbn [fst]. now apply file_set_other.
  Qed.
  (** Steps other than opening and writing leave every file as it is. *)
  Lemma step_quiet n s p : match p_at V p with W_open _ _ _ | W_write _ _ _ _ _ => False | _ => True end ->
    fs_file (fst (step n s p)) = fs_file s.
  Proof.
    unfold StoreModel.step. destruct (p_at V p) as [| | | |d|d r|off rest g r]; intros H; try contradiction; cbn [fst].
    - reflexivity.
    - destruct (fs_dir s); reflexivity.
    - reflexivity.
    - destruct (fs_file s (f_name V (p_func V p))) as [b|]; [|reflexivity]. destruct (loads b) as [[d|]|]; try reflexivity.
      destruct (negb _); [reflexivity|]. destruct (lookup V py_eq d (p_key V p)); reflexivity.
    - destruct (call_func V (p_func V p) (p_args V p)) as [r|e]; [|reflexivity]. destruct (forallb hashable (p_key V p)); reflexivity.
  Qed.
  (** and no writing follows them *)
  Lemma step_not_write n s p q : match p_at V p with W_open _ _ _ | W_write _ _ _ _ _ => False | _ => True end ->
    snd (step n s p) = inl q -> match p_at V q with W_write _ _ _ _ _ => False | _ => True end.
  Proof.
    unfold StoreModel.step, go. destruct (p_at V p) as [| | | |d|d r|off rest g r]; intros H E; try contradiction; cbn [snd] in E.
    - inversion E; subst. cbn. now destruct (fs_dir s).
    - destruct (fs_dir s); cbn [snd] in E; inversion E; subst. exact I.
    - inversion E; subst. cbn. now destruct (fs_file s _).
    - destruct (fs_file s (f_name V (p_func V p))) as [b|]; [|discriminate]. destruct (loads b) as [[d|]|]; try discriminate.
      destruct (negb _); [discriminate|]. destruct (lookup V py_eq d (p_key V p)); [discriminate|]. cbn [snd] in E. inversion E; subst. exact I.
    - destruct (call_func V (p_func V p) (p_args V p)) as [r|e]; [|discriminate]. destruct (forallb hashable (p_key V p)); [|discriminate].
      cbn [snd] in E. inversion E; subst. exact I.
  Qed.
  Lemma start_fine f a : K f -> proper_args V a ->
    match start V none f a with
    | inl p => key_fine p /\ p_func V p = f /\ p_at V p = W_exists_dir V
    | inr (Returned _ _) => False
    | inr _ => True
    end.
  Proof.
    intros Kf PA. unfold start. destruct (bind V f a) as [vs|e] eqn:HB; [|exact I].
    destruct (HK f Kf) as [PF _]. unfold key_fine. cbn [p_func p_args p_key p_at]. rewrite (given_tup_bind V none f a vs PF PA HB). auto.
  Qed.
  Lemma log_cons f a o l : log_fine l -> match o with Returned _ v => call_func V f a = Ok v | _ => True end -> log_fine ((f, a, o) :: l).
  Proof. intros H1 H2 g b v [E|E]; [inversion E; subst; exact H2|now apply H1]. Qed.

  (** ** One process at a time for each function; crashes anywhere *)
  Definition file_fine (f : func V) (o : option (list nat)) : Prop :=
    match o with
    | None => True
    | Some c => loads c = None \/ exists d, right V f d /\ dumps d = (c, true)
    end.
  Definition writing (s : fs) (p : proc V) : Prop :=
    match p_at V p with
    | W_write _ off rest g r =>
        exists c d, fs_file s (f_name V (p_func V p)) = Some c /\ length c = off /\ right V (p_func V p) d /\ dumps d = (c ++ rest, g)
    | _ => file_fine (p_func V p) (fs_file s (f_name V (p_func V p)))
    end.
  Definition inv1 (y : sys V) : Prop :=
    (forall i p, y_procs V y i = Some p -> key_fine p /\ at_fine p /\ writing (y_fs V y) p) /\
    (forall i j p q, y_procs V y i = Some p -> y_procs V y j = Some q -> f_name V (p_func V p) = f_name V (p_func V q) -> i = j) /\
    (forall f, K f -> (forall i p, y_procs V y i = Some p -> p_func V p <> f) -> file_fine f (fs_file (y_fs V y) (f_name V f))) /\
    log_fine (y_log V y).

  Lemma file_fine_reads f o : file_fine f o -> reads_right f o.
  Proof.
    destruct o as [c|]; [|trivial]. cbn. intros [E|(d & R & E)]; [now rewrite E|].
    destruct PK as (P1 & _). specialize (P1 d c [] E). rewrite app_nil_r in P1. now rewrite P1.
  Qed.
  (** what an interrupted process leaves *)
  Lemma writing_leaves s p : writing s p -> file_fine (p_func V p) (fs_file s (f_name V (p_func V p))).
  Proof.
    unfold writing. destruct (p_at V p) as [| | | |d|d r|off rest g r]; auto.
    intros (c & d & F & L & R & E). rewrite F. cbn. destruct PK as (P1 & P2 & P3 & P4).
    destruct rest as [|b rest].
    - rewrite app_nil_r in E. destruct g; [right; exists d; auto|left; exact (P2 d c E)].
    - left. apply (P3 d _ g c (b :: rest) E eq_refl). discriminate.
  Qed.
  Lemma writing_reads s p : writing s p -> match p_at V p with W_load _ => True | _ => False end \/ True -> reads_right (p_func V p) (fs_file s (f_name V (p_func V p))).
  Proof. intros W _. apply file_fine_reads. now apply writing_leaves. Qed.

  Lemma step_writing n s p : key_fine p -> at_fine p -> writing s p ->
    match snd (step n s p) with
    | inl q => writing (fst (step n s p)) q
    | inr _ => file_fine (p_func V p) (fs_file (fst (step n s p)) (f_name V (p_func V p)))
    end.
  Proof.
    intros KF AF W. destruct (p_at V p) as [| | | |d|d r|off rest g r] eqn:EA.
    1-5: (pose proof (step_quiet n s p) as SQ; rewrite EA in SQ; specialize (SQ I);
      pose proof (step_fine n s p KF AF (writing_reads s p W (or_intror I))) as SF;
      pose proof (step_not_write n s p) as NW; rewrite EA in NW;
      pose proof (writing_leaves s p W) as FF;
      destruct (snd (step n s p)) as [q|o];
      [destruct SF as (_ & _ & E); specialize (NW q I eq_refl); unfold writing; rewrite SQ, E; destruct (p_at V q); auto; contradiction
      |now rewrite SQ]).
    - unfold StoreModel.step. rewrite EA. cbn [snd fst go writing p_at p_func]. unfold writing. cbn [p_at p_func].
      exists [], d. rewrite file_set_same. unfold at_fine in AF. rewrite EA in AF. destruct AF as [R _].
      repeat split; auto. cbn [app]. now destruct (dumps d).
    - unfold writing in W. rewrite EA in W. destruct W as (c & d & F & L & R & E).
      unfold StoreModel.step. rewrite EA. destruct rest as [|b rest].
      + cbn [snd fst]. rewrite F. cbn. destruct PK as (P1 & P2 & P3 & P4). rewrite app_nil_r in E.
        destruct g; [right; exists d; auto|left; exact (P2 d c E)].
      + cbn [snd fst go]. unfold writing. cbn [p_at p_func]. exists (c ++ firstn (S n) (b :: rest)), d. rewrite file_set_same, F.
        subst off. rewrite overlay_end. split; [reflexivity|]. split; [apply app_length|]. split; [exact R|].
        rewrite <- app_assoc, firstn_skipn. exact E.
  Qed.

  Lemma writing_other s s' p : fs_file s' (f_name V (p_func V p)) = fs_file s (f_name V (p_func V p)) -> writing s p -> writing s' p.
  Proof. intros E. unfold writing. now rewrite E. Qed.

  Lemma happens_inv1 y e : inv1 y -> alone V y e ->
    match e with E_call _ i f a => K f /\ proper_args V a | _ => True end -> inv1 (happens y e).
  Proof.
    intros (I1 & I2 & I3 & I4) AL OK. destruct e as [i f a|i n|i].
    - destruct OK as [Kf PA]. cbn [StoreModel.happens]. destruct (y_procs V y i) as [p0|] eqn:EP; [unfold inv1; auto|].
      pose proof (start_fine f a Kf PA) as SF. destruct (start V none f a) as [p|o].
      + destruct SF as (KF & EF & EA).
        assert (NF : forall j q, y_procs V y j = Some q -> p_func V q <> f).
        { intros j q Hj E. apply (AL j q Hj). now rewrite E. }
        split; [|split; [|split]]; cbn [ended y_fs y_procs y_log].
        * intros j q Hj. unfold set_proc in Hj. destruct (j =? i); [|now apply (I1 j)].
          inversion Hj; subst q. split; [exact KF|]. split; [unfold at_fine; now rewrite EA|].
          unfold writing. rewrite EA, EF. apply I3; auto.
        * intros j k q r Hj Hk E. unfold set_proc in Hj, Hk. destruct (j =? i) eqn:E1, (k =? i) eqn:E2.
          -- apply Nat.eqb_eq in E1, E2. congruence.
          -- inversion Hj; subst q. exfalso. apply (AL k r Hk). rewrite <- E. now rewrite EF.
          -- inversion Hk; subst r. exfalso. apply (AL j q Hj). rewrite E. now rewrite EF.
          -- exact (I2 j k q r Hj Hk E).
        * intros g Kg Hg. apply I3; [exact Kg|]. intros j q Hj. apply (Hg j q). unfold set_proc.
          destruct (j =? i) eqn:E1; [|exact Hj]. apply Nat.eqb_eq in E1. congruence.
        * exact I4.
      + split; [|split; [|split]]; cbn [ended y_fs y_procs y_log].
        * intros j q Hj. unfold set_proc in Hj. destruct (j =? i); [discriminate|]. now apply (I1 j).
        * intros j k q r Hj Hk. unfold set_proc in Hj, Hk. destruct (j =? i); [discriminate|]. destruct (k =? i); [discriminate|]. now apply I2.
        * intros g Kg Hg. apply I3; [exact Kg|]. intros j q Hj. apply (Hg j q). unfold set_proc.
          destruct (j =? i) eqn:E1; [|exact Hj]. apply Nat.eqb_eq in E1. congruence.
        * apply log_cons; [exact I4|]. destruct o; [contradiction|exact I].
    - cbn [StoreModel.happens]. destruct (y_procs V y i) as [p|] eqn:EP; [|unfold inv1; auto].
      destruct (I1 i p EP) as (KF & AF & W).
      pose proof (step_fine n (y_fs V y) p KF AF (writing_reads _ _ W (or_intror I))) as SF.
      pose proof (step_writing n (y_fs V y) p KF AF W) as SW.
      pose proof (step_other n (y_fs V y) p) as SO.
      destruct (step n (y_fs V y) p) as [s' r] eqn:ES. cbn [fst snd] in *.
      assert (OTH : forall j q, y_procs V y j = Some q -> j <> i -> f_name V (p_func V q) <> f_name V (p_func V p)).
      { intros j q Hj NE E. apply NE. exact (I2 j i q p Hj EP E). }
      destruct r as [q|o].
      + destruct SF as (KQ & AQ & EQ). split; [|split; [|split]]; cbn [ended y_fs y_procs y_log].
        * intros j z Hj. unfold set_proc in Hj. destruct (j =? i) eqn:E1.
          -- inversion Hj; subst z. auto.
          -- apply Nat.eqb_neq in E1. destruct (I1 j z Hj) as (A & B & C). repeat split; auto; try apply A.
             apply writing_other with (y_fs V y); [|exact C]. apply SO. exact (OTH j z Hj E1).
        * intros j k z w Hj Hk E. unfold set_proc in Hj, Hk. destruct (j =? i) eqn:E1, (k =? i) eqn:E2.
          -- apply Nat.eqb_eq in E1, E2. congruence.
          -- inversion Hj; subst z. rewrite EQ in E. exfalso. apply Nat.eqb_neq in E2. exact (OTH k w Hk E2 (eq_sym E)).
          -- inversion Hk; subst w. rewrite EQ in E. exfalso. apply Nat.eqb_neq in E1. exact (OTH j z Hj E1 E).
          -- exact (I2 j k z w Hj Hk E).
        * intros g Kg Hg. assert (NG : p_func V p <> g). { intros E. apply (Hg i q); [unfold set_proc; now rewrite Nat.eqb_refl|congruence]. }
          rewrite SO; [|intros E; apply NG; symmetry; exact (DN g (p_func V p) Kg (proj1 KF) E)].
          apply I3; [exact Kg|]. intros j z Hj. destruct (Nat.eq_dec j i) as [->|NE]; [congruence|].
          apply (Hg j z). unfold set_proc. apply Nat.eqb_neq in NE. now rewrite NE.
        * exact I4.
      + split; [|split; [|split]]; cbn [ended y_fs y_procs y_log].
        * intros j z Hj. unfold set_proc in Hj. destruct (j =? i) eqn:E1; [discriminate|].
          apply Nat.eqb_neq in E1. destruct (I1 j z Hj) as (A & B & C). repeat split; auto; try apply A.
          apply writing_other with (y_fs V y); [|exact C]. apply SO. exact (OTH j z Hj E1).
        * intros j k z w Hj Hk. unfold set_proc in Hj, Hk. destruct (j =? i); [discriminate|]. destruct (k =? i); [discriminate|]. now apply I2.
        * intros g Kg Hg. destruct (String.string_dec (f_name V g) (f_name V (p_func V p))) as [E|NE].
          -- rewrite (DN g (p_func V p) Kg (proj1 KF) E). exact SW.
          -- rewrite SO by exact NE. apply I3; [exact Kg|]. intros j z Hj.
             destruct (Nat.eq_dec j i) as [->|N2]; [intros E; apply NE; congruence|].
             apply (Hg j z). unfold set_proc. apply Nat.eqb_neq in N2. now rewrite N2.
        * apply log_cons; [exact I4|]. destruct o; [exact SF|exact I].
    - cbn [StoreModel.happens]. split; [|split; [|split]]; cbn [y_fs y_procs y_log].
      + intros j q Hj. unfold set_proc in Hj. destruct (j =? i); [discriminate|]. now apply (I1 j).
      + intros j k q r Hj Hk. unfold set_proc in Hj, Hk. destruct (j =? i); [discriminate|]. destruct (k =? i); [discriminate|]. now apply I2.
      + intros g Kg Hg. destruct (y_procs V y i) as [p|] eqn:EP.
        * destruct (I1 i p EP) as (KF & AF & W).
          destruct (String.string_dec (f_name V g) (f_name V (p_func V p))) as [E|NE].
          -- rewrite (DN g (p_func V p) Kg (proj1 KF) E). now apply writing_leaves.
          -- apply I3; [exact Kg|]. intros j z Hj. destruct (Nat.eq_dec j i) as [->|N2]; [intros E; apply NE; congruence|].
             apply (Hg j z). unfold set_proc. apply Nat.eqb_neq in N2. now rewrite N2.
        * apply I3; [exact Kg|]. intros j z Hj. destruct (Nat.eq_dec j i) as [->|N2]; [congruence|].
          apply (Hg j z). unfold set_proc. apply Nat.eqb_neq in N2. now rewrite N2.
      + exact I4.
  Qed.
  Lemma history_inv1 es : forall y, inv1 y -> calls_in V K es -> throughout V none py_eq hashable dumps loads (alone V) y es ->
    inv1 (history y es).
  Proof.
    induction es as [|e es IH]; intros y Hy CI TH; [exact Hy|]. cbn [throughout] in TH. destruct TH as [A TH].
    unfold StoreModel.history. cbn [fold_left]. apply IH; [|intros i f a H; apply (CI i f a); now right|exact TH].
    apply happens_inv1; auto. destruct e as [i f a| |]; auto. apply (CI i f a). now left.
  Qed.
  (** C48: crashes anywhere, one process at a time for each function. *)
  Theorem exclusive_right es s : calls_in V K es ->
    (forall f, K f -> complete_file V dumps s f) ->
    throughout V none py_eq hashable dumps loads (alone V) (empty_sys V s) es ->
    forall f a v, In (f, a, Returned V v) (y_log V (history (empty_sys V s) es)) -> call_func V f a = Ok v.
  Proof.
    intros CI CF TH. apply (history_inv1 es (empty_sys V s)); auto. split; [|split; [|split]]; cbn.
    - discriminate.
    - discriminate.
    - intros f Kf _. specialize (CF f Kf). unfold complete_file in CF. destruct (fs_file s (f_name V f)); [|exact I].
      destruct CF as (_ & d & R & E). right. exists d. auto.
    - intros f a v [].
  Qed.

  (** ** Any interleaving, when a file is written in one go *)
  Definition file_part (f : func V) (o : option (list nat)) : Prop :=
    match o with
    | None => True
    | Some c => loads c = None \/ exists d b junk, right V f d /\ dumps d = (b, true) /\ c = b ++ junk
    end.
  Definition ready (p : proc V) : Prop :=
    match p_at V p with
    | W_write _ off rest g r => rest = [] \/ off = 0 /\ exists d, right V (p_func V p) d /\ dumps d = (rest, true)
    | _ => True
    end.
  Definition inv2 (y : sys V) : Prop :=
    (forall i p, y_procs V y i = Some p -> key_fine p /\ at_fine p /\ ready p) /\
    (forall f, K f -> file_part f (fs_file (y_fs V y) (f_name V f))) /\
    log_fine (y_log V y).
  Lemma file_part_reads f o : file_part f o -> reads_right f o.
  Proof.
    destruct o as [c|]; [|trivial]. cbn. intros [E|(d & b & junk & R & E & ->)]; [now rewrite E|].
    destruct PK as (P1 & _). now rewrite (P1 d b junk E).
  Qed.
  Hypothesis PI : forall f, K f -> picklable V dumps f.

  Lemma step_part n s p : key_fine p -> at_fine p -> ready p -> file_part (p_func V p) (fs_file s (f_name V (p_func V p))) ->
    (forall off rest g r, p_at V p = W_write V off rest g r -> length rest <= S n) ->
    file_part (p_func V p) (fs_file (fst (step n s p)) (f_name V (p_func V p))) /\
    match snd (step n s p) with inl q => ready q | inr _ => True end.
  Proof.
    intros KF AF RD FP GO. destruct (p_at V p) as [| | | |d|d r|off rest g r] eqn:EA.
    1-5: (pose proof (step_quiet n s p) as SQ; rewrite EA in SQ; specialize (SQ I); rewrite SQ; split; [exact FP|];
      pose proof (step_not_write n s p) as NW; rewrite EA in NW; destruct (snd (step n s p)) as [q|o]; [|exact I];
      specialize (NW q I eq_refl); unfold ready; destruct (p_at V q); auto; contradiction).
    - unfold StoreModel.step. rewrite EA. cbn [fst snd go]. rewrite file_set_same. split.
      + left. apply PK.
      + unfold ready. cbn [p_at p_func]. right. split; [reflexivity|]. unfold at_fine in AF. rewrite EA in AF. destruct AF as [R _].
        exists d. split; [exact R|]. pose proof (PI _ (proj1 KF) d R) as P. destruct (dumps d) as [b g]; cbn in *. now subst.
    - unfold StoreModel.step. rewrite EA. destruct rest as [|b rest]; [split; [exact FP|exact I]|].
      specialize (GO off (b :: rest) g r eq_refl). cbn [fst snd go]. rewrite file_set_same.
      rewrite firstn_all2 by exact GO. rewrite skipn_all2 by exact GO. split; [|unfold ready; cbn [p_at]; now left].
      unfold ready in RD. rewrite EA in RD. destruct RD as [RD|(-> & d & R & E)]; [discriminate|].
      right. exists d, (b :: rest). eexists. split; [exact R|]. split; [exact E|apply overlay_start].
  Qed.
  Lemma happens_inv2 y e : inv2 y -> in_one_go V y e ->
    match e with E_call _ i f a => K f /\ proper_args V a | _ => True end -> inv2 (happens y e).
  Proof.
    intros (I1 & I3 & I4) AL OK. destruct e as [i f a|i n|i].
    - destruct OK as [Kf PA]. cbn [StoreModel.happens]. destruct (y_procs V y i) as [p0|] eqn:EP; [unfold inv2; auto|].
      pose proof (start_fine f a Kf PA) as SF. destruct (start V none f a) as [p|o].
      + destruct SF as (KF & EF & EA). split; [|split]; cbn [ended y_fs y_procs y_log]; auto.
        intros j q Hj. unfold set_proc in Hj. destruct (j =? i); [|now apply (I1 j)].
        inversion Hj; subst q. split; [exact KF|]. unfold at_fine, ready. rewrite EA. auto.
      + split; [|split]; cbn [ended y_fs y_procs y_log]; auto.
        * intros j q Hj. unfold set_proc in Hj. destruct (j =? i); [discriminate|]. now apply (I1 j).
        * apply log_cons; [exact I4|]. destruct o; [contradiction|exact I].
    - cbn [StoreModel.happens]. destruct (y_procs V y i) as [p|] eqn:EP; [|unfold inv2; auto].
      destruct (I1 i p EP) as (KF & AF & RD). pose proof (I3 _ (proj1 KF)) as FP.
      pose proof (step_fine n (y_fs V y) p KF AF (file_part_reads _ _ FP)) as SF.
      destruct (step_part n (y_fs V y) p KF AF RD FP) as [SP SR].
      { intros off rest g r E. exact (AL p off rest g r EP E). }
      pose proof (step_other n (y_fs V y) p) as SO.
      destruct (step n (y_fs V y) p) as [s' r] eqn:ES. cbn [fst snd] in *.
      assert (F : forall g, K g -> file_part g (fs_file s' (f_name V g))).
      { intros g Kg. destruct (String.string_dec (f_name V g) (f_name V (p_func V p))) as [E|NE].
        - rewrite (DN g (p_func V p) Kg (proj1 KF) E). exact SP.
        - rewrite SO by exact NE. now apply I3. }
      destruct r as [q|o].
      + destruct SF as (KQ & AQ & EQ). split; [|split]; cbn [ended y_fs y_procs y_log]; auto.
        intros j z Hj. unfold set_proc in Hj. destruct (j =? i); [inversion Hj; subst z; auto|now apply (I1 j)].
      + split; [|split]; cbn [ended y_fs y_procs y_log]; auto.
        * intros j z Hj. unfold set_proc in Hj. destruct (j =? i); [discriminate|]. now apply (I1 j).
        * apply log_cons; [exact I4|]. destruct o; [exact SF|exact I].
    - cbn [StoreModel.happens]. split; [|split]; cbn [y_fs y_procs y_log]; auto.
      intros j q Hj. unfold set_proc in Hj. destruct (j =? i); [discriminate|]. now apply (I1 j).
  Qed.
  Theorem one_go_right es s : calls_in V K es ->
    (forall f, K f -> complete_file V dumps s f) ->
    throughout V none py_eq hashable dumps loads (in_one_go V) (empty_sys V s) es ->
    forall f a v, In (f, a, Returned V v) (y_log V (history (empty_sys V s) es)) -> call_func V f a = Ok v.
  Proof.
    intros CI CF TH.
    assert (G : forall y, inv2 y -> forall es, calls_in V K es -> throughout V none py_eq hashable dumps loads (in_one_go V) y es -> inv2 (history y es)).
    { clear CI TH. intros y Hy es'. revert y Hy. induction es' as [|e es' IH]; intros y Hy CI TH; [exact Hy|]. cbn [throughout] in TH. destruct TH as [A TH].
      unfold StoreModel.history. cbn [fold_left]. apply IH; [|intros i f a H; apply (CI i f a); now right|exact TH].
      apply happens_inv2; auto. destruct e as [i f a| |]; auto. apply (CI i f a). now left. }
    apply (G (empty_sys V s)); auto. split; [|split]; cbn.
    - discriminate.
    - intros f Kf. specialize (CF f Kf). unfold complete_file in CF. destruct (fs_file s (f_name V f)) as [b|]; [|exact I].
      destruct CF as (_ & d & R & E). right. exists d, b, []. rewrite app_nil_r. auto.
    - intros f a v [].
  Qed.
End Hist.

Section More.
  Variable V : Type.
  Variable none : V.
  Variable py_eq : V -> V -> bool.
  Variable hashable : V -> bool.
  Variable dumps : dict V -> list nat * bool.
  Variable loads : list nat -> option (loaded V).
  Notation call_alone := (call_alone V none py_eq hashable dumps loads).
  Notation step := (step V py_eq hashable dumps loads).

  (** A file that cannot be read stays, and no call of the function succeeds. *)
  Theorem unreadable_stays s f c : fs_dir s = true -> fs_file s (f_name V f) = Some c -> loads c = None ->
    forall fuel a vs, 3 <= fuel -> bind V f a = Ok vs -> call_alone fuel s f a = (s, Some (Raised V UnpicklingError)).
  Proof.
    intros D F L fuel a vs HF HB. unfold StoreModel.call_alone, start. rewrite HB.
    apply finish_mono with 3; [|exact HF].
    eapply finish_step. { unfold StoreModel.step, go. cbn [p_at p_func p_args p_key]. rewrite D. reflexivity. }
    eapply finish_step. { unfold StoreModel.step, go. cbn [p_at p_func p_args p_key]. rewrite F. reflexivity. }
    apply finish_end. unfold StoreModel.step, go. cbn [p_at p_func p_args p_key]. now rewrite F, L.
  Qed.

  (** Arguments without a hash are refused, even though the function takes them. *)
  Theorem unhashable_refused s f a vs : pickle_ok V dumps loads -> proper V f -> proper_args V a ->
    complete_file V dumps s f -> bind V f a = Ok vs -> forallb hashable vs = false -> (exists r, f_body V f vs = Ok r) ->
    forall fuel, 4 <= fuel -> exists s', call_alone fuel s f a = (s', Some (Raised V (Python TypeError))).
  Proof.
    intros PK PF PA CF HB HH (r & HR) fuel HF.
    assert (G : exists s', call_alone 4 s f a = (s', Some (Raised V (Python TypeError)))).
    { unfold StoreModel.call_alone, start. rewrite HB, (given_tup_bind V none f a vs PF PA HB).
      unfold complete_file in CF.
      assert (CALL : call_func V f a = Ok r) by (unfold call_func; now rewrite HB).
      destruct (fs_file s (f_name V f)) as [b|] eqn:EF.
      - destruct CF as (D & d & R & E). destruct PK as (P1 & _). specialize (P1 d b [] E). rewrite app_nil_r in P1.
        exists s. apply finish_mono with 3; [|lia].
        eapply finish_step. { unfold StoreModel.step, go. cbn [p_at p_func p_args p_key]. rewrite D. reflexivity. }
        eapply finish_step. { unfold StoreModel.step, go. cbn [p_at p_func p_args p_key]. rewrite EF. reflexivity. }
        apply finish_end. unfold StoreModel.step, go. cbn [p_at p_func p_args p_key]. now rewrite EF, P1, HH.
      - destruct (fs_dir s) eqn:D.
        + exists s. apply finish_mono with 3; [|lia].
          eapply finish_step. { unfold StoreModel.step, go. cbn [p_at p_func p_args p_key]. rewrite D. reflexivity. }
          eapply finish_step. { unfold StoreModel.step, go. cbn [p_at p_func p_args p_key]. rewrite EF. reflexivity. }
          apply finish_end. unfold StoreModel.step, go. cbn [p_at p_func p_args p_key]. now rewrite CALL, HH.
        + exists (make_dir s).
          eapply finish_step. { unfold StoreModel.step, go. cbn [p_at p_func p_args p_key]. rewrite D. reflexivity. }
          eapply finish_step. { unfold StoreModel.step, go. cbn [p_at p_func p_args p_key]. rewrite D. reflexivity. }
          eapply finish_step. { unfold StoreModel.step, go. cbn [p_at p_func p_args p_key make_dir fs_file]. rewrite EF. reflexivity. }
          apply finish_end. unfold StoreModel.step, go. cbn [p_at p_func p_args p_key]. now rewrite CALL, HH. }
    destruct G as [s' G]. exists s'. unfold StoreModel.call_alone in *. destruct (start V none f a); [|exact G]. now apply finish_mono with 4.
  Qed.

  (** C49: what a call leaves for other functions and other arguments. *)
  Lemma finish_other k : forall s p m, m <> f_name V (p_func V p) ->
    fs_file (fst (finish V py_eq hashable dumps loads k s p)) m = fs_file s m.
  Proof.
    induction k as [|k IH]; intros s p m Hm; [reflexivity|]. cbn [finish].
    pose proof (step_other V py_eq hashable dumps loads 0 s p m Hm) as SO.
    destruct (step 0 s p) as [s1 [p1|o]] eqn:ES; [|exact SO]. cbn [fst] in SO. rewrite IH; [exact SO|].
    assert (E : p_func V p1 = p_func V p).
    { clear - ES. unfold StoreModel.step, go in ES. repeat match type of ES with
          | context [match ?x with _ => _ end] => destruct x
          | context [if ?x then _ else _] => destruct x end; inversion ES; subst; auto. }
    now rewrite E.
  Qed.
  Theorem other_functions s f a g k fuel : f_name V g <> f_name V f ->
    stored V py_eq loads (fst (call_alone fuel s f a)) g k = stored V py_eq loads s g k.
  Proof.
    intros H. unfold stored. assert (E : fs_file (fst (call_alone fuel s f a)) (f_name V g) = fs_file s (f_name V g)).
    { unfold StoreModel.call_alone, start. destruct (bind V f a); [|reflexivity]. now apply finish_other. }
    now rewrite E.
  Qed.
  Theorem other_arguments s f a vs k : pickle_ok V dumps loads -> eq_on_keys V py_eq -> proper V f -> proper_args V a ->
    respects_eq V py_eq f -> picklable V dumps f -> hashable_args V hashable f a -> complete_file V dumps s f ->
    bind V f a = Ok vs -> tup_eq V py_eq vs k = false ->
    exists N, forall fuel, N <= fuel ->
      stored V py_eq loads (fst (call_alone fuel s f a)) f k = stored V py_eq loads s f k.
  Proof.
    intros PK EQ PF PA RE PI HA CF HB HK.
    assert (HH : forallb hashable vs = true). { apply forallb_forall. pose proof (HA vs HB) as H. now rewrite Forall_forall in H. }
    assert (OD : exists d, old_dict V loads s f d /\ right V f d /\ (fs_file s (f_name V f) <> None -> fs_dir s = true)).
    { unfold complete_file in CF. unfold old_dict. destruct (fs_file s (f_name V f)) as [b|].
      - destruct CF as (D & d & R & E). exists d. repeat split; auto. destruct PK as (P1 & _). specialize (P1 d b [] E).
        now rewrite app_nil_r in P1.
      - exists []. repeat split; [constructor|congruence]. }
    destruct OD as (d & OD & RD & DD).
    assert (SD : stored V py_eq loads s f k = lookup V py_eq d k).
    { unfold stored, old_dict in *. destruct (fs_file s (f_name V f)); [now rewrite OD|]. subst d. reflexivity. }
    destruct (call_alone_cases V none py_eq hashable dumps loads s f a vs d PK PF PA HB HH DD OD) as (N & s' & o & E & D & O & R).
    exists N. intros fuel L.
    assert (E' : call_alone fuel s f a = (s', Some o)).
    { unfold StoreModel.call_alone in *. destruct (start V none f a); [|exact E]. now apply finish_mono with N. }
    rewrite E', SD. cbn [fst]. unfold stored.
    assert (SAME : fs_file s' (f_name V f) = fs_file s (f_name V f) ->
      match fs_file s' (f_name V f) with Some b => match loads b with Some (L_dict _ d0) => lookup V py_eq d0 k | _ => None end | None => None end
        = lookup V py_eq d k).
    { intros ->. exact SD. }
    destruct (lookup V py_eq d vs) as [r|] eqn:LK; [now apply SAME|].
    destruct (f_body V f vs) as [r|e] eqn:EB; [|now apply SAME].
    destruct R as [_ ->].
    assert (RU : right V f (update V py_eq d vs r)) by now apply update_right.
    pose proof (PI _ RU) as Q. destruct (dumps (update V py_eq d vs r)) as [b g] eqn:ED. cbn in Q. subst g. cbn [fst].
    destruct PK as (P1 & _). specialize (P1 _ b [] ED). rewrite app_nil_r in P1. rewrite P1. now apply lookup_update_other.
  Qed.
End More.
