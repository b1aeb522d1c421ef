(** How arguments are given to the parameters of a stored function. *)
From Coq Require Import String List Bool Arith Lia.
From Verif Require Import Prelude StoreModel StoreSpec.
Import ListNotations.
Open Scope nat_scope.
Open Scope list_scope.

Section Bind.
Variable V : Type.

Lemma find_kw_in kw n v : NoDup (map fst kw) -> (find_kw V kw n = Some v <-> In (n, v) kw).
Proof.
  unfold find_kw. induction kw as [|[m w] kw IH]; cbn [map fst find]; intros ND.
  - split; [discriminate|intros []].
  - inversion ND as [|? ? NI ND']; subst. destruct (String.eqb_spec m n) as [->|NE]; cbn [snd].
    + split; [intros [= ->]; now left|]. intros [E|I]; [now inversion E|]. exfalso. apply NI. now apply (in_map fst) in I.
    + rewrite IH by exact ND'. split; [now right|]. intros [E|I]; [now inversion E|exact I].
Qed.
Lemma find_kw_none kw n : find_kw V kw n = None <-> ~ In n (map fst kw).
Proof.
  unfold find_kw. induction kw as [|[m w] kw IH]; cbn [map fst find].
  - split; [intros _ []|reflexivity].
  - destruct (String.eqb_spec m n) as [->|NE].
    + split; [discriminate|]. intros H. exfalso. apply H. now left.
    + rewrite IH. split; [intros H [E|I]; auto|]. intros H I. apply H. now right.
Qed.

Definition gives_params (ps : list (string * option V)) (pos : list V) (kw : list (string * V)) (vs : list V) : Prop :=
  length vs = length ps /\ length pos <= length ps /\
  forall i n d, nth_error ps i = Some (n, d) ->
    (i < length pos -> ~ In n (map fst kw) /\ nth_error vs i = nth_error pos i) /\
    (length pos <= i -> (exists v, In (n, v) kw /\ nth_error vs i = Some v) \/
       (~ In n (map fst kw) /\ d <> None /\ nth_error vs i = d)).

Lemma bind_params_spec kw : NoDup (map fst kw) -> forall ps pos vs,
  bind_params V ps pos kw = Ok vs <-> gives_params ps pos kw vs.
Proof.
  intros ND. induction ps as [|[n d] ps IH]; intros pos vs.
  - cbn [bind_params]. unfold gives_params. cbn [length]. destruct pos as [|v pos].
    + split.
      * intros [= <-]. split; [reflexivity|]. split; [apply le_n|]. intros [|i] ? ? H; discriminate.
      * intros (L & _). destruct vs; [reflexivity|discriminate].
    + split; [discriminate|]. intros (_ & H & _). cbn in H. lia.
  - cbn [bind_params].
    assert (TL : forall pos' v vs', pos = [] /\ pos' = [] \/ (exists p, pos = p :: pos' /\ v = p /\ ~ In n (map fst kw)) ->
      (pos = [] -> In (n, v) kw \/ (~ In n (map fst kw) /\ d = Some v)) ->
      (gives_params ps pos' kw vs' <-> gives_params ((n, d) :: ps) pos kw (v :: vs'))).
    { intros pos' v vs' HP HD. unfold gives_params. cbn [length]. split.
      - intros (L & LP & H). split; [lia|]. split; [destruct HP as [[-> ->]|(p & -> & _)]; cbn [length] in *; lia|].
        intros [|i] m e E; cbn [nth_error] in E.
        + injection E as <- <-. destruct HP as [[-> ->]|(p & -> & -> & NI)]; cbn [length nth_error].
          * split; [lia|]. intros _. destruct (HD eq_refl) as [I|[NI ->]]; [left; eauto|right; repeat split; [exact NI|discriminate]].
          * split; [intros _; split; [exact NI|reflexivity]|lia].
        + destruct (H i m e E) as [A B]. destruct HP as [[-> ->]|(p & -> & -> & NI)]; cbn [length nth_error] in *.
          * split; [lia|]. intros _. apply B. lia.
          * split; intros; [apply A|apply B]; lia.
      - intros (L & LP & H). split; [lia|]. split; [destruct HP as [[-> ->]|(p & -> & _)]; cbn [length] in *; lia|].
        intros i m e E. destruct (H (S i) m e E) as [A B]. destruct HP as [[-> ->]|(p & -> & -> & NI)]; cbn [length nth_error] in *.
        + split; [lia|]. intros _. apply B. lia.
        + split; intros; [apply A|apply B]; lia. }
    assert (CONS : forall v pos' (G : forall vs', gives_params ps pos' kw vs' <-> gives_params ((n, d) :: ps) pos kw (v :: vs')),
      (forall w, gives_params ((n, d) :: ps) pos kw w -> nth_error w 0 = Some v) ->
      ((do vs' <- bind_params V ps pos' kw; Ok (v :: vs')) = Ok vs <-> gives_params ((n, d) :: ps) pos kw vs)).
    { intros v pos' G F. split.
      - destruct (bind_params V ps pos' kw) as [vs'|] eqn:E; cbn [rbind]; [|discriminate]. intros [= <-]. apply G. now apply IH.
      - intros H. pose proof (F _ H) as F0. destruct vs as [|w vs]; [discriminate|]. cbn in F0. injection F0 as ->.
        apply G in H. apply IH in H. now rewrite H. }
    destruct pos as [|p pos].
    + destruct (find_kw V kw n) as [v|] eqn:Ef.
      * apply find_kw_in in Ef; [|exact ND]. apply CONS.
        -- intros vs'. apply TL; [now left|]. intros _. now left.
        -- intros w (_ & _ & H). destruct (H 0 n d eq_refl) as [_ B]. destruct (B (Nat.le_0_l _)) as [(v' & I & E)|(NI & _)].
           ++ rewrite E. f_equal. apply find_kw_in in I; [|exact ND]. apply find_kw_in in Ef; [|exact ND]. congruence.
           ++ exfalso. apply NI. now apply (in_map fst) in Ef.
      * apply find_kw_none in Ef. destruct d as [v|].
        -- apply CONS.
           ++ intros vs'. apply TL; [now left|]. intros _. right. auto.
           ++ intros w (_ & _ & H). destruct (H 0 n (Some v) eq_refl) as [_ B]. destruct (B (Nat.le_0_l _)) as [(v' & I & E)|(_ & _ & E)]; [|exact E].
              exfalso. apply Ef. now apply (in_map fst) in I.
        -- split; [discriminate|]. intros (_ & _ & H). destruct (H 0 n None eq_refl) as [_ B]. destruct (B (Nat.le_0_l _)) as [(v' & I & E)|(_ & C & _)]; [|congruence].
           exfalso. apply Ef. now apply (in_map fst) in I.
    + destruct (find_kw V kw n) as [v|] eqn:Ef.
      * apply find_kw_in in Ef; [|exact ND]. split; [discriminate|]. intros (_ & _ & H). destruct (H 0 n d eq_refl) as [A _].
        destruct (A ltac:(cbn; lia)) as [NI _]. exfalso. apply NI. now apply (in_map fst) in Ef.
      * apply find_kw_none in Ef. apply CONS.
        -- intros vs'. apply TL; [right; eauto|discriminate].
        -- intros w (_ & _ & H). destruct (H 0 n d eq_refl) as [A _]. exact (proj2 (A ltac:(cbn; lia))).
Qed.

Theorem bind_gives f a vs : proper V f -> proper_args V a -> (bind V f a = Ok vs <-> gives V f a vs).
Proof.
  intros PF PA. unfold bind, gives.
  assert (KN : forallb (fun p => existsb (fun q => String.eqb (fst p) (fst q)) (f_params V f)) (a_kw V a) = true <->
     forall n v, In (n, v) (a_kw V a) -> exists i d, nth_error (f_params V f) i = Some (n, d)).
  { rewrite forallb_forall. split.
    - intros H n v I. specialize (H _ I). apply existsb_exists in H. destruct H as ([m d] & Iq & E). cbn [fst] in E.
      apply String.eqb_eq in E. subst m. apply In_nth_error in Iq. destruct Iq as (i & Hi). eauto.
    - intros H [n v] I. destruct (H n v I) as (i & d & E). apply existsb_exists. exists (n, d). split; [now apply nth_error_In in E|]. apply String.eqb_refl. }
  assert (U : forall i j n d e, nth_error (f_params V f) i = Some (n, d) -> nth_error (f_params V f) j = Some (n, e) -> i = j).
  { intros i j n d e Ei Ej. apply (map_nth_error fst) in Ei, Ej. cbn [fst] in Ei, Ej. unfold proper in PF.
    rewrite NoDup_nth_error in PF. apply PF; [apply nth_error_Some; congruence|congruence]. }
  split.
  - destruct (forallb _ _) eqn:EF; [|discriminate]. intros H. apply bind_params_spec in H; [|exact PA]. destruct H as (L & LP & H).
    split; [exact L|]. split; [exact LP|]. split.
    + intros n v I. destruct (proj1 KN eq_refl n v I) as (i & d & E). exists i, d. split; [|exact E].
      destruct (le_lt_dec (length (a_pos V a)) i) as [|Lt]; [assumption|]. destruct (H i n d E) as [A _]. destruct (A Lt) as [NI _].
      exfalso. apply NI. now apply (in_map fst) in I.
    + intros i n d E. destruct (H i n d E) as [A B]. split; [intros Lt; apply (A Lt)|exact B].
  - intros (L & LP & HK & H). rewrite (proj2 KN).
    2:{ intros n v I. destruct (HK n v I) as (i & d & _ & E). eauto. }
    apply bind_params_spec; [exact PA|]. split; [exact L|]. split; [exact LP|]. intros i n d E. destruct (H i n d E) as [A B]. split; [|exact B].
    intros Lt. split; [|exact (A Lt)]. intros I. apply in_map_iff in I. destruct I as ([n' v] & En & I). cbn [fst] in En. subst n'.
    destruct (HK n v I) as (j & e & Ge & Ej). rewrite (U i j n d e E Ej) in Lt. lia.
Qed.

(** A call that Python would refuse touches no file. *)
Theorem wrong_call (none : V) py_eq hashable dumps loads fuel s f a : proper V f -> proper_args V a -> (forall vs, ~ gives V f a vs) ->
  call_alone V none py_eq hashable dumps loads fuel s f a = (s, Some (Raised V (Python TypeError))) /\ call_func V f a = Err TypeError.
Proof.
  intros PF PA H.
  assert (E : bind V f a = Err TypeError).
  { destruct (bind V f a) as [vs|e] eqn:E.
    - exfalso. apply (H vs). now apply bind_gives.
    - unfold bind in E. destruct (forallb _ _); [|injection E as <-; reflexivity]. revert E. generalize (a_pos V a), (a_kw V a). clear.
      induction (f_params V f) as [|[n d] ps IH]; intros pos kw; cbn [bind_params].
      + destruct pos; [discriminate|]. intros [= <-]. reflexivity.
      + assert (W : forall v pos', (do vs <- bind_params V ps pos' kw; Ok (v :: vs)) = Err e -> Err e = @Err (list V) TypeError).
        { intros v pos'. destruct (bind_params V ps pos' kw) as [|e'] eqn:E'; cbn [rbind]; [discriminate|]. intros [= ->]. now apply (IH pos' kw). }
        destruct pos as [|p pos], (find_kw V kw n) as [v|]; try apply W; [|intros [= <-]; reflexivity].
        destruct d as [v|]; [apply W|]. intros [= <-]. reflexivity. }
  unfold call_alone, start, call_func. rewrite E. split; reflexivity.
Qed.
End Bind.
