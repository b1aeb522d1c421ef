(** Stored results: what calls return. *)
From Coq Require Import String List Arith Bool Lia.
From Verif Require Import Prelude StoreModel StoreSpec.
Import ListNotations.
Open Scope nat_scope.
Open Scope list_scope.

Section Bind.
  Variable V : Type.
  Variable none : V.

  Lemma find_kw_cons (n m : string) (v : V) l : find_kw V ((n, v) :: l) m = if String.eqb n m then Some v else find_kw V l m.
  Proof. unfold find_kw. cbn [find fst]. destruct (String.eqb n m); reflexivity. Qed.
  Lemma find_kw_nil m : find_kw V [] m = None.
  Proof. reflexivity. Qed.
  Lemma find_kw_notin (l : list (string * V)) m : ~ In m (map fst l) -> find_kw V l m = None.
  Proof.
    induction l as [|[n v] l IH]; intros H; [reflexivity|]. rewrite find_kw_cons. destruct (String.eqb n m) eqn:E.
    - apply String.eqb_eq in E. exfalso. apply H. now left.
    - apply IH. intros K. apply H. now right.
  Qed.
  Lemma find_dict_set d (n m : string) (v : V) : find_kw V (dict_set V d n v) m = if String.eqb n m then Some v else find_kw V d m.
  Proof.
    induction d as [|[k w] d IH]; cbn [dict_set].
    - apply find_kw_cons.
    - destruct (String.eqb k n) eqn:E.
      + apply String.eqb_eq in E. subst k. rewrite !find_kw_cons. destruct (String.eqb n m); reflexivity.
      + rewrite !find_kw_cons, IH. destruct (String.eqb k m) eqn:E1, (String.eqb n m) eqn:E2; auto.
        apply String.eqb_eq in E1, E2. subst. rewrite String.eqb_refl in E. discriminate.
  Qed.
  Lemma find_fold (l : list (string * V)) : NoDup (map fst l) -> forall d m,
    find_kw V (fold_left (fun d p => dict_set V d (fst p) (snd p)) l d) m =
      match find_kw V l m with Some v => Some v | None => find_kw V d m end.
  Proof.
    induction l as [|[n v] l IH]; intros ND d m; [reflexivity|]. cbn [fold_left fst snd].
    inversion ND as [|? ? NI ND']; subst. rewrite (IH ND'), find_dict_set, find_kw_cons.
    destruct (String.eqb n m) eqn:E.
    - apply String.eqb_eq in E. subst m. now rewrite (find_kw_notin l n NI).
    - reflexivity.
  Qed.

  Definition value_of (ps : list (string * option V)) (pos : list V) (kw : list (string * V)) (m : string) : V :=
    match find_kw V kw m with
    | Some v => v
    | None => match find_kw V (combine (map fst ps) pos) m with
              | Some v => v
              | None => match find_kw V (map (fun p => (fst p, match snd p with Some v => v | None => none end)) ps) m with
                        | Some v => v
                        | None => none
                        end
              end
    end.
  Lemma bind_params_values ps : NoDup (map fst ps) -> forall pos kw vs, bind_params V ps pos kw = Ok vs ->
    vs = map (value_of ps pos kw) (map fst ps).
  Proof.
    induction ps as [|[n d] ps IH]; intros ND pos kw vs H.
    - cbn in H. destruct pos; [|discriminate]. cbn. congruence.
    - inversion ND as [|? ? NI ND']; subst. cbn [bind_params] in H.
      assert (TL : forall pos' v, map (value_of ps pos' kw) (map fst ps) = map (value_of ((n, d) :: ps) (v :: pos') kw) (map fst ps)).
      { intros pos' v. apply map_ext_in. intros m Hm. unfold value_of. destruct (find_kw V kw m); [reflexivity|].
        cbn [map fst combine]. rewrite !find_kw_cons.
        destruct (String.eqb n m) eqn:E; [apply String.eqb_eq in E; subst; tauto|reflexivity]. }
      assert (TN : map (value_of ps [] kw) (map fst ps) = map (value_of ((n, d) :: ps) [] kw) (map fst ps)).
      { apply map_ext_in. intros m Hm. unfold value_of. destruct (find_kw V kw m); [reflexivity|].
        cbn [map fst combine]. rewrite !find_kw_cons.
        destruct (String.eqb n m) eqn:E; [apply String.eqb_eq in E; subst; tauto|]. destruct (map fst ps); reflexivity. }
      destruct pos as [|v pos'].
      + destruct (find_kw V kw n) as [v|] eqn:EK.
        * destruct (bind_params V ps [] kw) as [ws|] eqn:EB; [|discriminate]. cbn [rbind] in H. assert (E : vs = v :: ws) by congruence.
          subst vs. cbn [map]. f_equal; [unfold value_of; cbn [fst]; now rewrite EK|]. rewrite (IH ND' _ _ _ EB). exact TN.
        * destruct d as [v|]; [|discriminate].
          destruct (bind_params V ps [] kw) as [ws|] eqn:EB; [|discriminate]. cbn [rbind] in H. assert (E : vs = v :: ws) by congruence.
          subst vs. cbn [map]. f_equal; [|rewrite (IH ND' _ _ _ EB); exact TN].
          unfold value_of. cbn [fst]. rewrite EK. cbn [map fst combine snd]. rewrite find_kw_nil, find_kw_cons, String.eqb_refl. reflexivity.
      + destruct (find_kw V kw n) as [w|] eqn:EK; [discriminate|].
        destruct (bind_params V ps pos' kw) as [ws|] eqn:EB; [|discriminate]. cbn [rbind] in H. assert (E : vs = v :: ws) by congruence.
        subst vs. cbn [map]. f_equal; [|rewrite (IH ND' _ _ _ EB); apply TL].
        unfold value_of. cbn [fst]. rewrite EK. cbn [map fst combine]. rewrite find_kw_cons, String.eqb_refl. reflexivity.
  Qed.
  Lemma combine_fst {A B} (l : list A) : forall (m : list B), exists k, map fst (combine l m) = firstn k l.
  Proof.
    induction l as [|a l IH]; intros [|b m]; try (exists 0; reflexivity). destruct (IH m) as [k E].
    exists (S k). cbn. now rewrite E.
  Qed.
  Lemma NoDup_firstn {A} k (l : list A) : NoDup l -> NoDup (firstn k l).
  Proof.
    revert k. induction l as [|x l IH]; intros [|k] H; try (constructor; fail). cbn [firstn]. inversion H; subst. constructor; auto.
    intros I. apply H2. rewrite <- (firstn_skipn k l). apply in_or_app. now left.
  Qed.
  (** The key of a call are the values of its parameters. *)
  Lemma given_tup_bind f a vs : proper V f -> proper_args V a -> bind V f a = Ok vs -> given_tup V none f a = vs.
  Proof.
    intros PF PA H. unfold bind in H. destruct (forallb _ (a_kw V a)); [|discriminate].
    rewrite (bind_params_values _ PF _ _ _ H). unfold given_tup. apply map_ext. intros m.
    unfold given_args. rewrite find_fold by exact PA. rewrite find_fold.
    - unfold value_of, get_default_args. destruct (find_kw V (a_kw V a) m); [reflexivity|].
      destruct (find_kw V (combine (map fst (f_params V f)) (a_pos V a)) m); reflexivity.
    - destruct (combine_fst (map fst (f_params V f)) (a_pos V a)) as [k ->]. now apply NoDup_firstn.
  Qed.
End Bind.

Section Dict.
  Variable V : Type.
  Variable py_eq : V -> V -> bool.
  Lemma lookup_right f d k r : respects_eq V py_eq f -> right V f d -> lookup V py_eq d k = Some r -> f_body V f k = Ok r.
  Proof.
    intros RE F H. unfold lookup in H. destruct (find _ d) as [[k' r']|] eqn:E; [|discriminate].
    apply find_some in E. destruct E as [I T]. cbn [fst snd] in *. unfold right in F. rewrite Forall_forall in F.
    specialize (F _ I). cbn [fst snd] in F. rewrite <- (RE _ _ T). congruence.
  Qed.
  Lemma update_right f d k r : respects_eq V py_eq f -> right V f d -> f_body V f k = Ok r -> right V f (update V py_eq d k r).
  Proof.
    intros RE F H. induction F as [|[k' r'] d F0 F IH]; cbn [update].
    - repeat constructor. exact H.
    - destruct (tup_eq V py_eq k' k) eqn:E; constructor; auto. cbn [fst snd]. now rewrite (RE _ _ E).
  Qed.
  Lemma lookup_update_other d k k' r : eq_on_keys V py_eq -> tup_eq V py_eq k k' = false ->
    lookup V py_eq (update V py_eq d k r) k' = lookup V py_eq d k'.
  Proof.
    intros (ER & ES & ET) H. induction d as [|[q w] d IH]; unfold lookup in *; cbn [update].
    - cbn [find fst]. now rewrite H.
    - destruct (tup_eq V py_eq q k) eqn:E; cbn [find fst].
      + assert (E2 : tup_eq V py_eq q k' = false).
        { destruct (tup_eq V py_eq q k') eqn:E2; [|reflexivity].
          rewrite (ET k q k') in H; auto. }
        now rewrite E2.
      + destruct (tup_eq V py_eq q k'); [reflexivity|]. exact IH.
  Qed.
  Lemma lookup_update_same d k r : eq_on_keys V py_eq -> lookup V py_eq (update V py_eq d k r) k = Some r.
  Proof.
    intros (ER & ES & ET). induction d as [|[q w] d IH]; unfold lookup in *; cbn [update].
    - cbn [find fst]. now rewrite ER.
    - destruct (tup_eq V py_eq q k) eqn:E; cbn [find fst]; rewrite E; [reflexivity|exact IH].
  Qed.
  Lemma lookup_nil k : lookup V py_eq [] k = None.
  Proof. reflexivity. Qed.
End Dict.

Lemma overlay_end c chunk : overlay c (length c) chunk = c ++ chunk.
Proof.
  unfold overlay. rewrite firstn_all, Nat.sub_diag. cbn [repeat app]. rewrite skipn_all2 by lia. now rewrite app_nil_r.
Qed.
Lemma overlay_start c chunk : overlay c 0 chunk = chunk ++ skipn (length chunk) c.
Proof. reflexivity. Qed.
Lemma file_set s n b m : fs_file (set_file s n b) m = if String.eqb m n then Some b else fs_file s m.
Proof. reflexivity. Qed.
Lemma file_set_same s n b : fs_file (set_file s n b) n = Some b.
Proof. rewrite file_set, String.eqb_refl. reflexivity. Qed.
Lemma file_set_other s n b m : m <> n -> fs_file (set_file s n b) m = fs_file s m.
Proof. intros H. rewrite file_set. apply String.eqb_neq in H. now rewrite H. Qed.

Section Alone.
  Variable V : Type.
  Variable none : V.
  Variable py_eq : V -> V -> bool.
  Variable hashable : V -> bool.
  Variable dumps : dict V -> list nat * bool.
  Variable loads : list nat -> option (loaded V).
  Notation step := (step V py_eq hashable dumps loads).
  Notation finish := (finish V py_eq hashable dumps loads).
  Notation call_alone := (call_alone V none py_eq hashable dumps loads).
  Notation happens := (happens V none py_eq hashable dumps loads).
  Notation history := (history V none py_eq hashable dumps loads).

  Lemma finish_mono k : forall s p s' o, finish k s p = (s', Some o) -> forall m, k <= m -> finish m s p = (s', Some o).
  Proof.
    induction k as [|k IH]; intros s p s' o H m L; [discriminate|]. destruct m as [|m]; [lia|].
    cbn [StoreModel.finish] in *. destruct (step 0 s p) as [s1 [p1|o1]]; [|exact H]. apply IH; [exact H|lia].
  Qed.
  Lemma finish_step k s p s1 p1 s' o : step 0 s p = (s1, inl p1) -> finish k s1 p1 = (s', Some o) -> finish (S k) s p = (s', Some o).
  Proof. intros E H. cbn [StoreModel.finish]. now rewrite E. Qed.
  Lemma finish_end s p s' o : step 0 s p = (s', inr o) -> finish 1 s p = (s', Some o).
  Proof. intros E. cbn [StoreModel.finish]. now rewrite E. Qed.

  (** Writing the whole file, alone. *)
  Lemma finish_write rest : forall s f a key off c g r, fs_file s (f_name V f) = Some c -> length c = off ->
    exists s', finish (S (length rest)) s {| p_func := f; p_args := a; p_key := key; p_at := W_write V off rest g r |}
                 = (s', Some (if g then Returned V r else Raised V PicklingError)) /\
      fs_file s' (f_name V f) = Some (c ++ rest) /\ fs_dir s' = fs_dir s /\
      (forall m, m <> f_name V f -> fs_file s' m = fs_file s m).
  Proof.
    induction rest as [|b rest IH]; intros s f a key off c g r HF HL.
    - exists s. rewrite app_nil_r. repeat split; auto.
    - set (s1 := set_file s (f_name V f) (c ++ [b])).
      destruct (IH s1 f a key (off + 1) (c ++ [b]) g r) as (s' & E & F & D & O).
      { apply file_set_same. } { rewrite app_length. cbn [length]. lia. }
      exists s'. split.
      + cbn [length]. eapply finish_step; [|exact E]. unfold StoreModel.step. cbn [p_at p_func p_args p_key firstn skipn].
        rewrite HF. subst off. rewrite overlay_end. reflexivity.
      + rewrite F, <- app_assoc. cbn [app]. split; [reflexivity|]. split; [rewrite D; reflexivity|].
        intros m Hm. rewrite (O m Hm). now apply file_set_other.
  Qed.

  (** What one call, alone, does. *)
  Definition old_dict (s : fs) (f : func V) (d : dict V) : Prop :=
    match fs_file s (f_name V f) with
    | None => d = []
    | Some b => loads b = Some (L_dict V d)
    end.
  Lemma call_alone_cases s f a vs d : pickle_ok V dumps loads -> proper V f -> proper_args V a ->
    bind V f a = Ok vs -> forallb hashable vs = true ->
    (fs_file s (f_name V f) <> None -> fs_dir s = true) -> old_dict s f d ->
    exists N s' o, call_alone N s f a = (s', Some o) /\
      fs_dir s' = true /\ (forall m, m <> f_name V f -> fs_file s' m = fs_file s m) /\
      match lookup V py_eq d vs with
      | Some r => o = Returned V r /\ fs_file s' (f_name V f) = fs_file s (f_name V f)
      | None => match f_body V f vs with
                | Err e => o = Raised V (Python e) /\ fs_file s' (f_name V f) = fs_file s (f_name V f)
                | Ok r => o = (if snd (dumps (update V py_eq d vs r)) then Returned V r else Raised V PicklingError) /\
                          fs_file s' (f_name V f) = Some (fst (dumps (update V py_eq d vs r)))
                end
      end.
  Proof.
    intros PK PF PA HB HH HD OD.
    set (pr := fun w => {| p_func := f; p_args := a; p_key := vs; p_at := w |}).
    assert (ST : start V none f a = inl (pr (W_exists_dir V))).
    { unfold start. rewrite HB, (given_tup_bind V none f a vs PF PA HB). reflexivity. }
    unfold StoreModel.call_alone. rewrite ST.
    (* from the dictionary on *)
    assert (CALL : forall s0, fs_dir s0 = true -> fs_file s0 = fs_file s -> lookup V py_eq d vs = None ->
      exists N s' o, finish N s0 (pr (W_call V d)) = (s', Some o) /\ fs_dir s' = true /\
        (forall m, m <> f_name V f -> fs_file s' m = fs_file s m) /\
        match f_body V f vs with
        | Err e => o = Raised V (Python e) /\ fs_file s' (f_name V f) = fs_file s (f_name V f)
        | Ok r => o = (if snd (dumps (update V py_eq d vs r)) then Returned V r else Raised V PicklingError) /\
                  fs_file s' (f_name V f) = Some (fst (dumps (update V py_eq d vs r)))
        end).
    { intros s0 D0 F0 LK.
      destruct (f_body V f vs) as [r|e] eqn:EB.
      - set (d' := update V py_eq d vs r).
        destruct (finish_write (fst (dumps d')) (set_file s0 (f_name V f) []) f a vs 0 [] (snd (dumps d')) r) as (s' & E & F & D & O).
        { apply file_set_same. } { reflexivity. }
        exists (S (S (S (length (fst (dumps d')))))), s', (if snd (dumps d') then Returned V r else Raised V PicklingError).
        split; [|split; [|split; [|split]]].
        + eapply finish_step with (s1 := s0) (p1 := pr (W_open V d' r)).
          { unfold StoreModel.step, pr, call_func. cbn [p_at p_func p_args p_key]. rewrite HB. cbn [rbind]. rewrite EB, HH. reflexivity. }
          eapply finish_step; [|exact E]. unfold StoreModel.step, pr. cbn [p_at p_func p_args p_key]. reflexivity.
        + rewrite D. exact D0.
        + intros m Hm. rewrite (O m Hm), file_set_other by exact Hm. now rewrite F0.
        + reflexivity.
        + exact F.
      - exists 1, s0, (Raised V (Python e)). split; [|repeat split; auto; now rewrite F0].
        apply finish_end. unfold StoreModel.step, pr, call_func. cbn [p_at p_func p_args p_key]. rewrite HB. cbn [rbind]. now rewrite EB. }
    (* from the test of the file on *)
    assert (FILE : forall s0, fs_dir s0 = true -> fs_file s0 = fs_file s ->
      exists N s' o, finish N s0 (pr (W_exists_file V)) = (s', Some o) /\ fs_dir s' = true /\
        (forall m, m <> f_name V f -> fs_file s' m = fs_file s m) /\
        match lookup V py_eq d vs with
        | Some r => o = Returned V r /\ fs_file s' (f_name V f) = fs_file s (f_name V f)
        | None => match f_body V f vs with
                  | Err e => o = Raised V (Python e) /\ fs_file s' (f_name V f) = fs_file s (f_name V f)
                  | Ok r => o = (if snd (dumps (update V py_eq d vs r)) then Returned V r else Raised V PicklingError) /\
                            fs_file s' (f_name V f) = Some (fst (dumps (update V py_eq d vs r)))
                  end
        end).
    { intros s0 D0 F0. unfold old_dict in OD. destruct (fs_file s (f_name V f)) as [b|] eqn:EF.
      - destruct (lookup V py_eq d vs) as [r|] eqn:LK.
        + exists 2, s0, (Returned V r). split; [|repeat split; auto; now rewrite F0].
          eapply finish_step with (s1 := s0) (p1 := pr (W_load V)).
          { unfold StoreModel.step, pr. cbn [p_at p_func p_args p_key]. rewrite F0, EF. reflexivity. }
          apply finish_end. unfold StoreModel.step, pr. cbn [p_at p_func p_args p_key]. rewrite F0, EF, OD, HH. cbn [negb]. now rewrite LK.
        + destruct (CALL s0 D0 F0 eq_refl) as (N & s' & o & E & D & O & R). exists (S (S N)), s', o. split; [|auto].
          eapply finish_step with (s1 := s0) (p1 := pr (W_load V)).
          { unfold StoreModel.step, pr. cbn [p_at p_func p_args p_key]. rewrite F0, EF. reflexivity. }
          eapply finish_step; [|exact E]. unfold StoreModel.step, pr. cbn [p_at p_func p_args p_key]. rewrite F0, EF, OD, HH. cbn [negb]. now rewrite LK.
      - subst d. rewrite lookup_nil. destruct (CALL s0 D0 F0 (lookup_nil _ _ _)) as (N & s' & o & E & D & O & R). exists (S N), s', o.
        split; [|auto]. eapply finish_step; [|exact E]. unfold StoreModel.step, pr. cbn [p_at p_func p_args p_key]. rewrite F0, EF. reflexivity. }
    destruct (fs_dir s) eqn:ED.
    - destruct (FILE s ED eq_refl) as (N & s' & o & E & R). exists (S N), s', o. split; [|exact R].
      eapply finish_step; [|exact E]. unfold StoreModel.step, pr. cbn [p_at]. rewrite ED. reflexivity.
    - destruct (FILE (make_dir s) eq_refl eq_refl) as (N & s' & o & E & R). exists (S (S N)), s', o. split; [|exact R].
      eapply finish_step with (s1 := s) (p1 := pr (W_makedirs V)).
      { unfold StoreModel.step, pr. cbn [p_at]. rewrite ED. reflexivity. }
      eapply finish_step; [|exact E]. unfold StoreModel.step, pr. cbn [p_at]. rewrite ED. reflexivity.
  Qed.

  (** C47: a whole call returns what the function does. *)
  Lemma call_alone_right s f a : pickle_ok V dumps loads -> proper V f -> proper_args V a -> respects_eq V py_eq f ->
    picklable V dumps f -> hashable_args V hashable f a -> complete_file V dumps s f ->
    exists N s', (forall fuel, N <= fuel -> call_alone fuel s f a = (s', Some (plain_call V f a))) /\
      complete_file V dumps s' f /\ (forall m, m <> f_name V f -> fs_file s' m = fs_file s m) /\
      (fs_dir s = true -> fs_dir s' = true).
  Proof.
    intros PK PF PA RE PI HA CF. destruct (bind V f a) as [vs|e] eqn:HB.
    - assert (HH : forallb hashable vs = true). { apply forallb_forall. pose proof (HA vs HB) as H. now rewrite Forall_forall in H. }
      assert (OD : exists d, old_dict s f d /\ right V f d /\ (fs_file s (f_name V f) <> None -> fs_dir s = true)).
      { unfold complete_file in CF. unfold old_dict. destruct (fs_file s (f_name V f)) as [b|].
        - destruct CF as (D & d & R & E). exists d. repeat split; auto. destruct PK as (P1 & _). specialize (P1 d b [] E).
          now rewrite app_nil_r in P1.
        - exists []. repeat split; [constructor|congruence]. }
      destruct OD as (d & OD & RD & DD).
      destruct (call_alone_cases s f a vs d PK PF PA HB HH DD OD) as (N & s' & o & E & D & O & R).
      exists N, s'.
      assert (X : o = plain_call V f a /\ complete_file V dumps s' f).
      { unfold plain_call, call_func. rewrite HB. cbn [rbind]. unfold complete_file. destruct (lookup V py_eq d vs) as [r|] eqn:LK.
        - rewrite (lookup_right V py_eq f d vs r RE RD LK). destruct R as [-> ->]. split; [reflexivity|].
          unfold complete_file in CF. destruct (fs_file s (f_name V f)); [|exact I]. destruct CF as (_ & CF). auto.
        - destruct (f_body V f vs) as [r|e] eqn:EB.
          + assert (RU : right V f (update V py_eq d vs r)) by now apply update_right.
            destruct R as [-> ->]. rewrite (PI _ RU). split; [reflexivity|]. split; [exact D|]. exists (update V py_eq d vs r). split; [exact RU|].
            pose proof (PI _ RU) as Q. destruct (dumps (update V py_eq d vs r)); cbn in *; congruence.
          + destruct R as [-> ->]. split; [reflexivity|].
            unfold complete_file in CF. destruct (fs_file s (f_name V f)); [|exact I]. destruct CF as (_ & CF). auto. }
      destruct X as [-> X]. split; [|auto].
      intros fuel L. unfold StoreModel.call_alone in *. destruct (start V none f a); [|exact E]. now apply finish_mono with N.
    - exists 0, s. assert (ST : start V none f a = inr (Raised V (Python e))) by (unfold start; now rewrite HB).
      split; [|auto]. intros fuel _. unfold StoreModel.call_alone. rewrite ST. unfold plain_call, call_func. rewrite HB. reflexivity.
  Qed.

  Lemma calls_alone_right K l : pickle_ok V dumps loads -> different_names V K ->
    (forall f, K f -> proper V f /\ respects_eq V py_eq f /\ picklable V dumps f) ->
    Forall (fun p => K (fst p) /\ proper_args V (snd p) /\ hashable_args V hashable (fst p) (snd p)) l ->
    forall s, (forall f, K f -> complete_file V dumps s f) ->
    exists N s', forall fuel, N <= fuel ->
      calls_alone V none py_eq hashable dumps loads fuel s l = (s', map (fun p => Some (plain_call V (fst p) (snd p))) l).
  Proof.
    intros PK DN HK HL. induction HL as [|[f a] l (Kf & PA & HA) HL IH]; intros s CF.
    - exists 0, s. reflexivity.
    - cbn [fst snd] in *. destruct (HK f Kf) as (PF & RE & PI).
      destruct (call_alone_right s f a PK PF PA RE PI HA (CF f Kf)) as (N1 & s1 & E1 & C1 & O1 & D1).
      destruct (IH s1) as (N2 & s2 & E2).
      { intros g Kg. destruct (String.string_dec (f_name V g) (f_name V f)) as [E|NE].
        - now rewrite (DN g f Kg Kf E).
        - unfold complete_file. rewrite (O1 _ NE). specialize (CF g Kg). unfold complete_file in CF.
          destruct (fs_file s (f_name V g)); [|exact I]. destruct CF as (D & CF). auto. }
      exists (Nat.max N1 N2), s2. intros fuel L. cbn [calls_alone]. rewrite E1 by lia. rewrite E2 by lia. reflexivity.
  Qed.

  (** A call alone is a history. *)
  Lemma finish_history k : forall y i p s' o, y_procs V y i = Some p -> finish k (y_fs V y) p = (s', Some o) ->
    y_fs V (history y (repeat (E_step V i 0) k)) = s' /\ y_log V (history y (repeat (E_step V i 0) k)) = (p_func V p, p_args V p, o) :: y_log V y.
  Proof.
    induction k as [|k IH]; intros y i p s' o HP H; [discriminate|].
    cbn [StoreModel.finish] in H. cbn [repeat]. unfold StoreModel.history. cbn [fold_left]. fold (history (happens y (E_step V i 0)) (repeat (E_step V i 0) k)).
    destruct (step 0 (y_fs V y) p) as [s1 [p1|o1]] eqn:ES;
      (assert (E0 : happens y (E_step V i 0) = let (s, r) := step 0 (y_fs V y) p in ended V y s i (p_func V p) (p_args V p) r)
        by (cbn [StoreModel.happens]; now rewrite HP)); rewrite ES in E0; rewrite E0; clear E0.
    - assert (FA : p_func V p1 = p_func V p /\ p_args V p1 = p_args V p).
      { unfold StoreModel.step, go in ES. repeat match type of ES with
          | context [match ?x with _ => _ end] => destruct x
          | context [if ?x then _ else _] => destruct x end; inversion ES; subst; auto. }
      destruct FA as [<- <-]. change (y_log V y) with (y_log V (ended V y s1 i (p_func V p) (p_args V p) (inl p1))).
      apply IH.
      + cbn [ended y_procs]. unfold set_proc. now rewrite Nat.eqb_refl.
      + exact H.
    - inversion H; subst. cbn [ended].
      assert (ID : forall m z, y_procs V z i = None -> history z (repeat (E_step V i 0) m) = z).
      { induction m as [|m IHm]; intros z Hz; [reflexivity|]. cbn [repeat]. unfold StoreModel.history. cbn [fold_left].
        unfold StoreModel.happens at 2. rewrite Hz. apply IHm. exact Hz. }
      rewrite ID; [split; reflexivity|]. cbn [y_procs]. unfold set_proc. now rewrite Nat.eqb_refl.
  Qed.
  Lemma call_alone_history fuel s f a s' o : call_alone fuel s f a = (s', Some o) ->
    y_fs V (history (empty_sys V s) (E_call V 0 f a :: repeat (E_step V 0 0) fuel)) = s' /\
    y_log V (history (empty_sys V s) (E_call V 0 f a :: repeat (E_step V 0 0) fuel)) = [(f, a, o)].
  Proof.
    intros H. unfold StoreModel.call_alone in H. unfold StoreModel.history. cbn [fold_left].
    fold (history (happens (empty_sys V s) (E_call V 0 f a)) (repeat (E_step V 0 0) fuel)).
    assert (E0 : happens (empty_sys V s) (E_call V 0 f a) = ended V (empty_sys V s) s 0 f a (start V none f a)) by reflexivity.
    rewrite E0. destruct (start V none f a) as [p|o'] eqn:ES.
    - assert (FA : p_func V p = f /\ p_args V p = a).
      { unfold start in ES. destruct (bind V f a); inversion ES; subst; auto. }
      destruct FA as [<- <-]. apply finish_history; [|exact H]. reflexivity.
    - inversion H; subst. cbn [ended].
      assert (ID : forall m z, y_procs V z 0 = None -> history z (repeat (E_step V 0 0) m) = z).
      { induction m as [|m IHm]; intros z Hz; [reflexivity|]. cbn [repeat]. unfold StoreModel.history. cbn [fold_left].
        unfold StoreModel.happens at 2. rewrite Hz. apply IHm. exact Hz. }
      rewrite ID; [split; reflexivity|reflexivity].
  Qed.
End Alone.
