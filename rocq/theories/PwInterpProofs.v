(** Interpolation drivers: segments, snapping, continuity, dictionaries
    (C10, C12, C13, C15). *)
From Coquelicot Require Import Coquelicot.
From Coq Require Import String.
From Verif Require Import Prelude PreludeFacts Poly PolyFacts PwModel PwInterpModel PwFacts PwSpec PwInterpSpec PwSchemeProofs PwAccelProofs PwMotionProofs PwDynProofs PwStepProofs.
Open Scope R_scope.
Open Scope vec_scope.

(** ** Times *)
Lemma Int_part_unique r z : IZR z <= r < IZR z + 1 -> Int_part r = z.
Proof.
  intros [H1 H2]. destruct (base_Int_part r) as [B1 B2].
  assert (IZR (Int_part r) < IZR (z + 1)) by (rewrite plus_IZR; lra).
  assert (IZR z < IZR (Int_part r + 1)) by (rewrite plus_IZR; lra).
  apply lt_IZR in H. apply lt_IZR in H0. lia.
Qed.
Lemma seg_index_eq t h z : 0 < h -> IZR z * h <= t < (IZR z + 1) * h -> seg_index t h = z.
Proof.
  intros Hh [H1 H2]. apply Int_part_unique. split.
  - apply Rmult_le_reg_r with h; auto. unfold Rdiv. rewrite Rmult_assoc, Rinv_l by lra. lra.
  - apply Rmult_lt_reg_r with h; auto. unfold Rdiv. rewrite Rmult_assoc, Rinv_l by lra. lra.
Qed.
Lemma seg_bounds t h : 0 < h -> 0 <= seg_tau t h < h.
Proof.
  intros Hh. unfold seg_tau, seg_index. destruct (base_Int_part (t / h)) as [B1 B2].
  set (z := IZR (Int_part (t / h))) in *.
  assert (E : t = t / h * h) by (field; lra).
  split; rewrite E at 1; nra.
Qed.
Lemma seg_time t h : t = IZR (seg_index t h) * h + seg_tau t h.
Proof. unfold seg_tau. ring. Qed.
Lemma snap_pos : 0 < snap. Proof. unfold snap. lra. Qed.
Lemma snap_small : snap < / 2. Proof. unfold snap. lra. Qed.

(** Around a sample, the sample. *)
Lemma newpoint_snap X Xd h t scheme sp i : 0 < h -> (i < length X)%nat ->
  Rabs (t - INR i * h) < h * snap ->
  newpoint X Xd h t scheme sp = Ok (nth i X []).
Proof.
  intros Hh Hi Ht. pose proof snap_pos as S1. pose proof snap_small as S2.
  assert (Hs : h * snap < h / 2) by nra.
  unfold newpoint. rewrite INR_IZR_INZ in Ht.
  destruct (Rle_lt_dec (IZR (Z.of_nat i) * h) t) as [Hge|Hlt].
  - rewrite Rabs_pos_eq in Ht by lra.
    assert (En : seg_index t h = Z.of_nat i) by (apply seg_index_eq; nra).
    unfold seg_tau. rewrite En.
    destruct (Z.ltb_spec (Z.of_nat (length X)) (Z.of_nat i + 1)); [lia|].
    destruct (Rlt_dec (Rabs (t - IZR (Z.of_nat i) * h)) (h * snap)) as [_|N].
    + now apply pyget_nat.
    + rewrite Rabs_pos_eq in N; lra.
  - rewrite Rabs_left in Ht by lra.
    assert (En : seg_index t h = (Z.of_nat i - 1)%Z).
    { apply seg_index_eq; auto. rewrite minus_IZR. nra. }
    unfold seg_tau. rewrite En, minus_IZR.
    destruct (Z.ltb_spec (Z.of_nat (length X)) (Z.of_nat i - 1 + 1)); [lia|].
    destruct (Rlt_dec (Rabs (t - (IZR (Z.of_nat i) - 1) * h)) (h * snap)) as [Y|_].
    + rewrite Rabs_pos_eq in Y by nra. nra.
    + destruct (Rlt_dec (Rabs (t - (IZR (Z.of_nat i) - 1) * h - h)) (h * snap)) as [_|N].
      * replace (Z.of_nat i - 1 + 1)%Z with (Z.of_nat i) by lia. now apply pyget_nat.
      * exfalso. apply N. rewrite Rabs_left; nra.
Qed.

Lemma newpoint_segment X Xd h t scheme sp i : 0 < h -> (i + 1 < length X)%nat ->
  length Xd = length X ->
  INR i * h + h * snap <= t <= (INR i + 1) * h - h * snap ->
  newpoint X Xd h t scheme sp =
  interp_scheme scheme sp (Z.of_nat i) (nth i X []) (nth (i + 1) X []) (nth i Xd []) (nth (i + 1) Xd [])
    (t - INR i * h) h.
Proof.
  intros Hh Hi HX Ht. pose proof snap_pos as S1. pose proof snap_small as S2.
  unfold newpoint. rewrite INR_IZR_INZ in *.
  assert (En : seg_index t h = Z.of_nat i) by (apply seg_index_eq; nra).
  unfold seg_tau. rewrite En.
  destruct (Z.ltb_spec (Z.of_nat (length X)) (Z.of_nat i + 1)); [lia|].
  destruct (Rlt_dec _ _) as [Y|_].
  { rewrite Rabs_pos_eq in Y; nra. }
  destruct (Rlt_dec _ _) as [Y|_].
  { rewrite Rabs_left1 in Y; nra. }
  replace (Z.of_nat i + 1)%Z with (Z.of_nat (i + 1)) by lia.
  rewrite (pyget_nat X i []), (pyget_nat X (i + 1) []), (pyget_nat Xd i []), (pyget_nat Xd (i + 1) []) by lia.
  reflexivity.
Qed.

Lemma newpoint_after X Xd h t scheme sp : 0 < h -> X <> [] ->
  (INR (length X) - 1) * h + h * snap <= t ->
  exists e, newpoint X Xd h t scheme sp = Err e /\ (e = ValueError \/ e = IndexError).
Proof.
  intros Hh HX Ht. pose proof snap_pos as S1. pose proof snap_small as S2.
  assert (HL : (0 < length X)%nat) by (destruct X; simpl; [congruence|lia]).
  unfold newpoint. pose proof (seg_bounds t h Hh) as B. pose proof (seg_time t h) as E.
  set (n := seg_index t h) in *. set (tau := seg_tau t h) in *. clearbody n tau.
  destruct (Z.ltb_spec (Z.of_nat (length X)) (n + 1)).
  { exists ValueError. auto. }
  assert (n = Z.of_nat (length X) - 1)%Z.
  { rewrite INR_IZR_INZ in Ht. apply Zle_antisym; [lia|].
    assert (IZR (Z.of_nat (length X)) - 1 < IZR n + 1) by nra.
    assert (IZR (Z.of_nat (length X) - 1) < IZR (n + 1)) as HH by (rewrite minus_IZR, plus_IZR; lra).
    apply lt_IZR in HH. lia. }
  subst n. rewrite minus_IZR, <- INR_IZR_INZ in E.
  destruct (Rlt_dec _ _) as [Y|_].
  { rewrite Rabs_pos_eq in Y by lra. nra. }
  replace (Z.of_nat (length X) - 1 + 1)%Z with (Z.of_nat (length X)) by lia.
  rewrite (pyget_nat_out X (length X)) by lia.
  destruct (Rlt_dec _ _) as [Y|_].
  - exists IndexError. auto.
  - replace (Z.of_nat (length X) - 1)%Z with (Z.of_nat (length X - 1)) by lia.
    rewrite (pyget_nat X _ []) by lia. exists IndexError. auto.
Qed.

(** Negative times are not rejected: at t = -h the LAST sample is returned. *)
Lemma newpoint_minus_h X Xd h scheme sp : 0 < h -> X <> [] ->
  newpoint X Xd h (- h) scheme sp = Ok (nth (length X - 1) X []).
Proof.
  intros Hh HX. unfold newpoint.
  assert (En : seg_index (- h) h = (-1)%Z) by (apply seg_index_eq; nra).
  unfold seg_tau. rewrite En.
  assert (HL : (0 < length X)%nat) by (destruct X; simpl; [congruence|lia]).
  destruct (Z.ltb_spec (Z.of_nat (length X)) (-1 + 1)); [lia|].
  destruct (Rlt_dec _ _) as [_|N].
  - now apply pyget_last.
  - exfalso. apply N. pose proof snap_pos. replace (- h - -1 * h) with 0 by ring. rewrite Rabs_R0. nra.
Qed.

(** ** Gluing *)
Lemma continuous_join (f g : R -> R) a :
  (forall t, continuous f t) -> (forall t, continuous g t) -> f a = g a ->
  forall t, continuous (fun s => if Rle_dec s a then f s else g s) t.
Proof.
  intros Hf Hg E t. destruct (Rtotal_order t a) as [H|[H|H]].
  - apply (continuous_ext_loc _ f); auto.
    assert (He : 0 < a - t) by lra. exists (mkposreal _ He). intros y Hy.
    assert (y - t < a - t).
    { assert (Hy' : Rabs (y - t) < a - t) by exact Hy. apply Rabs_def2 in Hy'. lra. }
    destruct (Rle_dec y a); auto. lra.
  - subst t. intros Q HQ. destruct (Rle_dec a a) as [_|n]; [|exfalso; lra].
    assert (HQ' : locally (g a) Q) by (rewrite <- E; exact HQ).
    generalize (Hf a Q HQ) (Hg a Q HQ'). unfold filtermap. intros H1 H2.
    generalize (filter_and _ _ H1 H2). apply filter_imp. intros y [Q1 Q2].
    destruct (Rle_dec y a); auto.
  - apply (continuous_ext_loc _ g); auto.
    assert (He : 0 < t - a) by lra. exists (mkposreal _ He). intros y Hy.
    assert (Hy' : Rabs (y - t) < t - a) by exact Hy. apply Rabs_def2 in Hy'.
    destruct (Rle_dec y a); auto. lra.
Qed.

Fixpoint glue (f : nat -> R -> vec) (h : R) (m : nat) (t : R) : vec :=
  match m with
  | O => f 0%nat t
  | S m' => if Rle_dec t (INR (S m') * h) then glue f h m' t else f (S m') (t - INR (S m') * h)
  end.
Lemma glue_segment f h m : 0 < h -> (forall i, (i < m)%nat -> f i h = f (S i) 0) ->
  forall i t, (i <= m)%nat -> INR i * h <= t <= (INR i + 1) * h -> glue f h m t = f i (t - INR i * h).
Proof.
  intros Hh. induction m as [|m IH]; intros Hj i t Hi Ht.
  - replace i with 0%nat by lia. cbn [glue]. f_equal. simpl. ring.
  - cbn [glue]. destruct (Rle_dec t (INR (S m) * h)) as [Hle|Hgt].
    + destruct (Nat.eq_dec i (S m)) as [->|Hne].
      * assert (t = INR (S m) * h) by lra. subst t.
        rewrite (IH ltac:(intros; apply Hj; lia) m); [|lia|rewrite S_INR; nra].
        replace (INR (S m) * h - INR (S m) * h) with 0 by ring.
        replace (INR (S m) * h - INR m * h) with h by (rewrite S_INR; ring).
        apply Hj. lia.
      * apply IH; [intros; apply Hj; lia|lia|auto].
    + destruct (Nat.eq_dec i (S m)) as [->|Hne]; [reflexivity|].
      exfalso. assert (INR i + 1 <= INR (S m)).
      { rewrite <- S_INR. apply le_INR. lia. }
      nra.
Qed.
Lemma glue_continuous f h m k : 0 < h -> (forall i, (i < m)%nat -> f i h = f (S i) 0) ->
  (forall i t, (i <= m)%nat -> continuous (fun s => vnth (f i s) k) t) ->
  forall t, continuous (fun s => vnth (glue f h m s) k) t.
Proof.
  intros Hh. induction m as [|m IH]; intros Hj Hc t.
  - apply (Hc 0%nat). lia.
  - cbn [glue].
    apply (continuous_ext (fun s => if Rle_dec s (INR (S m) * h) then vnth (glue f h m s) k
                                    else vnth (f (S m) (s - INR (S m) * h)) k)).
    { intros s. destruct (Rle_dec s (INR (S m) * h)); reflexivity. }
    apply (continuous_join (fun s => vnth (glue f h m s) k) (fun s => vnth (f (S m) (s - INR (S m) * h)) k)).
    + apply IH; [intros; apply Hj; lia|intros; apply Hc; lia].
    + intros s. apply (continuous_comp (fun s => s - INR (S m) * h) (fun s => vnth (f (S m) s) k)).
      * apply (continuous_minus (fun s => s) (fun _ => INR (S m) * h)); [apply continuous_id|apply continuous_const].
      * apply Hc. lia.
    + f_equal. rewrite (glue_segment f h m Hh) with (i := m); [|intros; apply Hj; lia|lia|rewrite S_INR; nra].
      replace (INR (S m) * h - INR m * h) with h by (rewrite S_INR; ring).
      replace (INR (S m) * h - INR (S m) * h) with 0 by ring. apply Hj. lia.
Qed.

(** Segments that meet at the samples glue to one continuous function. *)
Lemma glue_segments (X : list vec) h N (seg : nat -> R -> vec) :
  0 < h -> (2 <= length X)%nat ->
  (forall i, (i + 1 < length X)%nat -> seg i 0 = nth i X [] /\ seg i h = nth (i + 1) X []) ->
  (forall i k t, (i + 1 < length X)%nat -> (k < N)%nat -> continuous (fun s => vnth (seg i s) k) t) ->
  exists Y : R -> vec,
    (forall k t, (k < N)%nat -> continuous (fun s => vnth (Y s) k) t) /\
    (forall i t, (i + 1 < length X)%nat -> INR i * h <= t <= (INR i + 1) * h -> Y t = seg i (t - INR i * h)) /\
    on_samples X h Y.
Proof.
  intros Hh HX He Hc. set (m := (length X - 2)%nat).
  assert (Hj : forall i, (i < m)%nat -> seg i h = seg (S i) 0).
  { intros i Hi. destruct (He i ltac:(unfold m in *; lia)) as [_ E1].
    destruct (He (S i) ltac:(unfold m in *; lia)) as [E2 _].
    rewrite E1, E2. f_equal. lia. }
  assert (Hseg : forall i t, (i + 1 < length X)%nat -> INR i * h <= t <= (INR i + 1) * h ->
                 glue seg h m t = seg i (t - INR i * h)).
  { intros i t Hi Ht. apply glue_segment; auto. unfold m. lia. }
  exists (glue seg h m). split; [|split]; auto.
  - intros k t Hk. apply glue_continuous; auto. intros i s Hi. apply Hc; auto. unfold m in *. lia.
  - intros i Hi. destruct (Nat.eq_dec i (length X - 1)) as [->|Hne].
    + rewrite (Hseg (length X - 2)%nat); [|lia|].
      * replace (INR (length X - 1) * h - INR (length X - 2) * h) with h.
        { destruct (He (length X - 2)%nat ltac:(lia)) as [_ ->]. f_equal. lia. }
        replace (length X - 1)%nat with (S (length X - 2)) by lia. rewrite S_INR. ring.
      * replace (length X - 1)%nat with (S (length X - 2)) by lia. rewrite S_INR. nra.
    + rewrite (Hseg i); [|lia|nra].
      replace (INR i * h - INR i * h) with 0 by ring. apply He. lia.
Qed.

Lemma newpoint_values X Xd h scheme sp (seg : nat -> R -> vec) Y :
  0 < h -> (2 <= length X)%nat -> length Xd = length X ->
  (forall i tau, (i + 1 < length X)%nat ->
     interp_scheme scheme sp (Z.of_nat i) (nth i X []) (nth (i + 1) X []) (nth i Xd []) (nth (i + 1) Xd []) tau h
     = Ok (seg i tau)) ->
  (forall i t, (i + 1 < length X)%nat -> INR i * h <= t <= (INR i + 1) * h -> Y t = seg i (t - INR i * h)) ->
  forall t y, 0 <= t -> newpoint X Xd h t scheme sp = Ok y -> is_value_of X h Y t y.
Proof.
  intros Hh HX HXd Hs Hseg t y Ht NN.
  destruct (Rlt_le_dec t ((INR (length X) - 1) * h + h * snap)) as [Hsn|Hfar].
  2:{ destruct (newpoint_after X Xd h t scheme sp Hh) as [e [E _]]; auto.
      { intros ->. simpl in HX. lia. }
      rewrite E in NN. discriminate. }
  pose proof snap_pos as S1. pose proof snap_small as S2.
  pose proof (seg_bounds t h Hh) as B. pose proof (seg_time t h) as E.
  set (z := seg_index t h) in *. set (tau := seg_tau t h) in *. clearbody z tau.
  assert (Hz0 : (0 <= z)%Z).
  { assert (IZR (-1) < IZR z) as HH by nra. apply lt_IZR in HH. lia. }
  assert (Hz1 : (z < Z.of_nat (length X))%Z).
  { apply lt_IZR. rewrite <- INR_IZR_INZ. nra. }
  assert (Ez : z = Z.of_nat (Z.to_nat z)) by lia. set (i := Z.to_nat z) in *. clearbody i.
  subst z. rewrite <- INR_IZR_INZ in E.
  destruct (Rlt_dec tau (h * snap)) as [Hlo|Hlo].
  { assert (Hab : Rabs (t - INR i * h) < h * snap) by (rewrite Rabs_pos_eq; lra).
    rewrite (newpoint_snap X Xd h t scheme sp i Hh ltac:(lia) Hab) in NN. injection NN as NN.
    right. exists i. split; [lia|]. split; auto. }
  destruct (Nat.eq_dec i (length X - 1)) as [->|Hne].
  { exfalso. rewrite minus_INR in E by lia. change (INR 1) with 1 in E. nra. }
  destruct (Rlt_dec (h - tau) (h * snap)) as [Hhi|Hhi].
  { assert (Hab : Rabs (t - INR (S i) * h) < h * snap).
    { rewrite S_INR. rewrite Rabs_left1; lra. }
    rewrite (newpoint_snap X Xd h t scheme sp (S i) Hh ltac:(lia) Hab) in NN. injection NN as NN.
    right. exists (S i). split; [lia|]. split; auto. }
  left. rewrite (newpoint_segment X Xd h t scheme sp i) in NN; [|auto|lia|auto|lra].
  rewrite Hs in NN by lia. injection NN as <-. symmetry. apply Hseg; [lia|lra].
Qed.

(** ** The drivers *)
Lemma mapm_ok {A B} (f : A -> Res B) l r : mapm f l = Ok r ->
  length r = length l /\ forall i da db, (i < length l)%nat -> f (nth i l da) = Ok (nth i r db).
Proof.
  revert r. induction l as [|a l IH]; simpl; intros r H.
  - injection H as <-. split; auto. simpl. lia.
  - destruct (f a) as [b|e] eqn:E; simpl in H; [|discriminate].
    destruct (mapm f l) as [bs|e]; simpl in H; [|discriminate]. injection H as <-.
    destruct (IH bs eq_refl) as [L Hn]. split; [simpl; lia|].
    intros [|i] da db Hi; simpl in *; auto. apply Hn. lia.
Qed.
Lemma mapm_total {A B} (f : A -> Res B) (g : A -> B) l :
  (forall a, In a l -> f a = Ok (g a)) -> mapm f l = Ok (map g l).
Proof.
  induction l as [|a l IH]; simpl; intros H; auto.
  rewrite H by auto. simpl. rewrite IH by auto. reflexivity.
Qed.
Lemma pyget_ok {A} (l : list A) i a d : pyget l (Z.of_nat i) = Ok a -> (i < length l)%nat /\ a = nth i l d.
Proof.
  intros H. destruct (Nat.lt_ge_cases i (length l)) as [Hi|Hi].
  - rewrite (pyget_nat l i d) in H by auto. injection H as <-. auto.
  - rewrite pyget_nat_out in H by auto. discriminate.
Qed.

Lemma prepare_ok X U h ts U' old_t : prepare_interp X U h ts = Ok (U', old_t) ->
  U' = full_controls X U /\ length U' = length X /\ old_t = map (fun i => INR i * h) (seq 0 (length X)).
Proof.
  unfold prepare_interp, full_controls, extend_array.
  destruct (Nat.eqb_spec (length X) (length U + 1)) as [E|E].
  - destruct U as [|u0 U0].
    + cbn. discriminate.
    + rewrite (pyget_last (u0 :: U0) []) by discriminate. cbn [rbind].
      destruct (length X =? length ((u0 :: U0) ++ [nth (length (u0 :: U0) - 1) (u0 :: U0) []]))%nat eqn:E2; simpl negb; cbn iota; [|discriminate].
      apply Nat.eqb_eq in E2.
      destruct (pyget ts (-1)); cbn [rbind]; [|discriminate].
      destruct (pyget _ (-1)); cbn [rbind]; [|discriminate].
      destruct (Rlt_dec _ _); [discriminate|]. intros H. injection H as <- <-.
      split; [|split]; auto. rewrite (last_nth_length (u0 :: U0) []) by discriminate. reflexivity.
  - cbn [rbind]. destruct (length X =? length U)%nat eqn:E2; simpl negb; cbn iota; [|discriminate].
    apply Nat.eqb_eq in E2.
    destruct (pyget ts (-1)); cbn [rbind]; [|discriminate].
    destruct (pyget _ (-1)); cbn [rbind]; [|discriminate].
    destruct (Rlt_dec _ _); [discriminate|]. intros H. injection H as <- <-. auto.
Qed.

Lemma nth_butlast1 {A} (l : list A) i d : (i + 1 < length l)%nat -> nth i (butlastn 1 l) d = nth i l d.
Proof.
  intros H. unfold butlastn. simpl Nat.eqb. cbn iota. rewrite nth_firstn.
  destruct (Nat.ltb_spec i (length l - 1)); auto. lia.
Qed.
Lemma butlast1_length {A} (l : list A) : length (butlastn 1 l) = (length l - 1)%nat.
Proof. unfold butlastn. simpl. rewrite firstn_length. lia. Qed.

Section Missing.
  Context {P : Type}.
  Variable F : vec -> vec -> P -> vec.
  Variable p : P.

  Lemma missing_ok X U h scheme u_scheme sp Xd sp1 :
    length U = length X -> sp_x_dot_c sp = None -> sp_x_c sp = None ->
    scheme <> "hs_scipy"%string ->
    calculate_missing X U h p (Some F) None scheme u_scheme sp = Ok (Xd, sp1) ->
    length Xd = length X /\
    (forall i, (i < length X)%nat -> nth i Xd [] = F (nth i X []) (nth i U []) p) /\
    sp_order sp1 = sp_order sp /\
    (contains "hs" scheme = true -> exists XC, sp_x_dot_c sp1 = Some XC /\
       forall i, (i + 1 < length X)%nat ->
         pyget XC (Z.of_nat i) =
         Ok (driver_xdc F p scheme h (nth i X []) (nth (i + 1) X []) (nth i U []) (nth (i + 1) U [])
               (interior_u scheme sp U i))).
  Proof.
    intros HU H1 H2 H3. unfold calculate_missing.
    destruct (mapm _ (seq 0 (length X))) as [Xd'|e] eqn:EX; cbn [rbind]; [|discriminate].
    apply mapm_ok in EX. rewrite seq_length in EX. destruct EX as [LX NX].
    assert (NX' : forall i, (i < length X)%nat -> nth i Xd' [] = F (nth i X []) (nth i U []) p).
    { intros i Hi. specialize (NX i 0%nat [] Hi). rewrite seq_nth, Nat.add_0_l in NX by auto.
      rewrite (pyget_nat X i []), (pyget_nat U i []) in NX by lia. cbn [rbind] in NX. injection NX; auto. }
    rewrite H1, H2. apply String.eqb_neq in H3. rewrite H3.
    destruct (contains "hs" scheme) eqn:Ehs; cbn [andb negb].
    2:{ intros H. injection H as <- <-. repeat split; auto. discriminate. }
    destruct (mapm _ (seq 0 (length X - 1))) as [Xc|e] eqn:EC; cbn [rbind]; [|discriminate].
    apply mapm_ok in EC. rewrite seq_length in EC. destruct EC as [LC NC].
    assert (NC' : forall i, (i + 1 < length X)%nat -> nth i Xc [] =
              midpoint_of scheme (nth i X []) (nth (i + 1) X []) (nth i Xd' []) (nth (i + 1) Xd' []) h).
    { intros i Hi. specialize (NC i 0%nat [] ltac:(lia)). rewrite seq_nth, ?Nat.add_0_l in NC by lia.
      rewrite (pyget_nat X i []), (pyget_nat X (i + 1) []), (pyget_nat Xd' i []), (pyget_nat Xd' (i + 1) []) in NC by lia.
      cbn [rbind] in NC. injection NC; auto. }
    clear NX NC.
    set (sp2 := match sp_u_c sp with None => _ | Some _ => sp end).
    assert (Ho : sp_order sp2 = sp_order sp).
    { unfold sp2. destruct (sp_u_c sp); auto. destruct (contains "parab" u_scheme); auto. }
    assert (Hu : forall Uc i u, sp_u_c sp2 = Some Uc -> (i + 1 < length X)%nat -> pyget Uc (Z.of_nat i) = Ok u ->
                 u = interior_u scheme sp U i).
    { intros Uc i u E Hi Hg. unfold sp2, interior_u, default_u_c in *. destruct (sp_u_c sp) as [c|] eqn:Ec.
      - rewrite Ec in E. injection E as <-. now apply pyget_ok with (d := []) in Hg.
      - destruct (contains "parab" u_scheme); [rewrite Ec in E; discriminate|].
        cbn [sp_u_c] in E. injection E as <-.
        apply pyget_ok with (d := []) in Hg. destruct Hg as [_ ->].
        assert (B := nth_butlast1 U i [] ltac:(lia)). assert (K := nth_skipn' 1 U i []).
        rewrite (Nat.add_comm 1 i) in K. cbn [skipn] in K.
        destruct (contains "j" scheme); unfold mid_controls;
        (rewrite nth_map2 with (da := []) (db := []);
          [rewrite B; cbn [skipn]; rewrite K; reflexivity|rewrite butlast1_length; lia|destruct U; simpl in *; lia]). }
    destruct (sp_u_c sp2) as [Uc|] eqn:EU; cbn [getkey rbind]; [|discriminate].
    destruct (mapm _ (seq 0 (length Xc))) as [XDC|e] eqn:ED; cbn [rbind]; [|discriminate].
    apply mapm_ok in ED. rewrite seq_length in ED. destruct ED as [LD ND].
    intros H. injection H as <- <-. cbn [sp_order sp_x_dot_c].
    split; [auto|]. split; [auto|]. split; [auto|]. intros _. exists XDC. split; auto.
    intros i Hi. specialize (ND i 0%nat [] ltac:(lia)). rewrite seq_nth, ?Nat.add_0_l in ND by lia.
    rewrite (pyget_nat Xc i []) in ND by lia. cbn [rbind] in ND.
    destruct (pyget Uc (Z.of_nat i)) as [u|e] eqn:Eu; cbn [rbind] in ND; [|discriminate].
    injection ND as ND. rewrite (pyget_nat XDC i []) by lia. f_equal. rewrite <- ND.
    rewrite (Hu Uc i u eq_refl Hi Eu). unfold driver_xdc. rewrite NC' by auto.
    rewrite !NX' by lia. reflexivity.
  Qed.
End Missing.

(** The whole driver: see C13 in PwProps.v for the reading. *)

Lemma continuous_of_D k c t : continuous (fun s => D k c s) t.
Proof.
  apply (@ex_derive_continuous R_AbsRing R_NormedModule (fun s => D k c s) t).
  exists (D (S k) c t). apply (D_is_derive k c t).
Qed.

Lemma smooth_continuous dmax M n h x x_n I i t : smooth_step dmax M n h x x_n I -> dmax 0%nat ->
  (i < M * n)%nat -> continuous (fun s => vnth (I 0%nat s) i) t.
Proof.
  intros [[c Hc] _] H0 Hi. destruct (index_split M n i Hi) as [k [j [Hk [Hj ->]]]].
  apply (continuous_ext (fun s => D k (c j) s)); [|apply continuous_of_D].
  intros s. specialize (Hc 0%nat s k j H0 Hk Hj). rewrite Nat.add_0_r in Hc. now rewrite <- Hc.
Qed.
Lemma smooth_derivative dmax M n h x x_n I d i t : smooth_step dmax M n h x x_n I -> dmax d -> dmax (S d) ->
  (i < M * n)%nat -> is_derive (fun s => vnth (I d s) i) t (vnth (I (S d) t) i).
Proof.
  intros [[c Hc] _] H0 H1 Hi. destruct (index_split M n i Hi) as [k [j [Hk [Hj ->]]]].
  apply (is_derive_ext (fun s => D (k + d) (c j) s)).
  { intros s. now rewrite <- (Hc d s k j H0 Hk Hj). }
  change (vnth (I (S d) t) (k * n + j)) with (coord n (I (S d) t) k j).
  rewrite (Hc (S d) t k j H1 Hk Hj). rewrite Nat.add_succ_r. apply D_is_derive.
Qed.
Lemma dmax_0 scheme : dmax_of scheme 0%nat.
Proof. unfold dmax_of. destruct (contains "j" scheme); auto. Qed.

Lemma scheme_not_scipy scheme order M : scheme_blocks scheme order = Some M -> scheme <> "hs_scipy"%string.
Proof. intros H ->. discriminate H. Qed.

Section Driver.
  Context {P : Type}.
  Variable F : vec -> vec -> P -> vec.
  Variable p : P.
  Variable u_other : string -> R -> Res vec.
  Variable hermite : list R -> list vec -> list vec -> R -> vec.

  Lemma all_steps scheme M n h X U sp :
    scheme_blocks scheme (sp_order sp) = Some M -> (0 < M)%nat -> (0 < n)%nat -> order_form M n F p -> h <> 0 ->
    (forall x, In x X -> length x = (M * n)%nat) ->
    steps_hold F p scheme M n h X U sp ->
    forall i, (i + 1 < length X)%nat ->
      step_facts F p scheme M n h (nth i X []) (nth (i + 1) X []) (nth i U []) (nth (i + 1) U [])
        (interior_u scheme sp U i).
  Proof.
    intros Hb HM Hn HF Hh HX Hr i Hi. destruct (Hr i Hi) as [r [Hs Hz]].
    apply (scheme_step F p scheme (sp_order sp) M n h _ _ _ _ _ r); auto; apply HX; apply nth_In; lia.
  Qed.

  Lemma choose_segments (N : nat) (Q : nat -> (nat -> R -> vec) -> Prop) :
    (forall i, (i + 1 < N)%nat -> exists I, Q i I) -> exists I, forall i, (i + 1 < N)%nat -> Q i (I i).
  Proof.
    induction N as [|N IH]; intros H.
    - exists (fun _ _ _ => []). intros i Hi. lia.
    - destruct IH as [I HI]; [intros; apply H; lia|].
      destruct (Nat.lt_ge_cases 1 (S N)) as [H1|H1].
      + destruct (H (N - 1)%nat ltac:(lia)) as [J HJ].
        exists (fun i => if (i =? N - 1)%nat then J else I i).
        intros i Hi. destruct (Nat.eqb_spec i (N - 1)); [subst; auto|apply HI; lia].
      + exists I. intros i Hi. lia.
  Qed.

  Definition has_missing (scheme : string) (h : R) (X U : list vec) (sp : sparams) (Xd : list vec) (sp1 : sparams) : Prop :=
    length Xd = length X /\
    (forall i, (i < length X)%nat -> nth i Xd [] = F (nth i X []) (nth i U []) p) /\
    sp_order sp1 = sp_order sp /\
    (contains "hs" scheme = true -> exists XC, sp_x_dot_c sp1 = Some XC /\
       forall i, (i + 1 < length X)%nat ->
         pyget XC (Z.of_nat i) =
         Ok (driver_xdc F p scheme h (nth i X []) (nth (i + 1) X []) (nth i U []) (nth (i + 1) U [])
               (interior_u scheme sp U i))).

  Lemma smooth_derive_n dmax M n h x x_n I d k t : smooth_step dmax M n h x x_n I -> dmax 0%nat -> dmax d ->
    (k < M * n)%nat -> vnth (I d t) k = Derive_n (fun s => vnth (I 0%nat s) k) d t.
  Proof.
    intros [[c Hc] _] H0 H1 Hi. destruct (index_split M n k Hi) as [b [j [Hk [Hj ->]]]].
    change (vnth (I d t) (b * n + j)) with (coord n (I d t) b j). rewrite Hc by auto.
    rewrite (Derive_n_ext _ (peval (pderiv_n b (c j)))).
    - rewrite Derive_n_peval, <- pderiv_n_add. reflexivity.
    - intros s. specialize (Hc 0%nat s b j H0 Hk Hj). rewrite Nat.add_0_r in Hc. exact Hc.
  Qed.

  Lemma driver_core scheme M n h X U sp :
    scheme_blocks scheme (sp_order sp) = Some M -> (0 < M)%nat -> (0 < n)%nat -> order_form M n F p -> 0 < h ->
    (2 <= length X)%nat -> (forall x, In x X -> length x = (M * n)%nat) ->
    steps_hold F p scheme M n h X U sp ->
    exists Y Z,
      (forall k t, (k < M * n)%nat -> continuous (fun s => vnth (Y s) k) t) /\
      on_samples X h Y /\
      pieces F p scheme M n h X U sp Y Z /\
      forall Xd sp1, has_missing scheme h X U sp Xd sp1 ->
        (forall t y, 0 <= t -> newpoint X Xd h t scheme sp1 = Ok y -> is_value_of X h Y t y) /\
        (forall d t y, 0 <= t -> (0 < d)%nat -> dmax_of scheme d -> newpoint_der X Xd h t scheme d sp1 = Ok y ->
           is_derivative_of (M * n) X h Z d t y).
  Proof.
    intros Hb HM Hn HF Hh HL HX Hst.
    destruct (choose_segments (length X) (fun i I =>
      is_interp_of scheme I M h (nth i X []) (nth (i + 1) X [])
         (F (nth i X []) (nth i U []) p) (F (nth (i + 1) X []) (nth (i + 1) U []) p)
         (driver_xdc F p scheme h (nth i X []) (nth (i + 1) X []) (nth i U []) (nth (i + 1) U []) (interior_u scheme sp U i)) /\
      smooth_step (dmax_of scheme) M n h (nth i X []) (nth (i + 1) X []) I /\
      obeys_at (M * n) F p (I 0%nat) 0 (nth i U []) /\
      obeys_at (M * n) F p (I 0%nat) h (nth (i + 1) U []) /\
      consistent_blocks M n (I 0%nat) /\
      (forall r, scheme_interior scheme = Some r -> obeys_at (M * n) F p (I 0%nat) (r * h) (interior_u scheme sp U i)))) as [I HI].
    { intros i Hi. destruct (all_steps scheme M n h X U sp Hb HM Hn HF ltac:(lra) HX Hst i Hi) as [I [A [B [C [D [E G]]]]]].
      exists I. split; [exact A|]. split; [exact B|]. split; [exact C|].
      split; [exact D|]. split; [exact E|]. intros r Hr. apply (G r Hr). }
    set (seg := fun i => I i 0%nat).
    assert (Hends : forall i, (i + 1 < length X)%nat -> seg i 0 = nth i X [] /\ seg i h = nth (i + 1) X []).
    { intros i Hi. destruct (HI i Hi) as [_ [[_ [_ B]] _]]. exact B. }
    assert (Hcont : forall i k t, (i + 1 < length X)%nat -> (k < M * n)%nat -> continuous (fun s => vnth (seg i s) k) t).
    { intros i k t Hi Hk. destruct (HI i Hi) as [_ [B _]]. eapply smooth_continuous; eauto. apply dmax_0. }
    destruct (glue_segments X h (M * n) seg Hh HL Hends Hcont) as [Y [Y1 [Y2 Y3]]].
    exists Y, seg. split; [exact Y1|]. split; [exact Y3|]. split.
    { intros i Hi. destruct (HI i Hi) as [_ [B [C [D [E G]]]]].
      split; [intros t Ht; apply Y2; auto|].
      split; [exact C|]. split; [exact D|]. split; [exact E|]. split; [exact G|].
      intros s. apply B. apply dmax_0. }
    intros Xd sp1 [LXd [NXd [Ho Hc]]].
    assert (Hii : forall i, (i + 1 < length X)%nat ->
       (forall tau, interp_scheme scheme sp1 (Z.of_nat i) (nth i X []) (nth (i + 1) X []) (nth i Xd []) (nth (i + 1) Xd []) tau h = Ok (I i 0%nat tau)) /\
       (forall d tau, (0 < d)%nat -> dmax_of scheme d ->
         interp_der_scheme scheme d sp1 (Z.of_nat i) (nth i X []) (nth (i + 1) X []) (nth i Xd []) (nth (i + 1) Xd []) tau h = Ok (I i d tau))).
    { intros i Hi. destruct (HI i Hi) as [A _]. rewrite !NXd by lia.
      destruct (contains "hs" scheme) eqn:Ehs.
      - destruct (Hc eq_refl) as [XC [E1 E2]].
        apply (A sp1 XC (Z.of_nat i)); [|intros _; split; auto].
        intros ->. rewrite Ho. exact Hb.
      - apply (A sp1 [] (Z.of_nat i)); [|rewrite Ehs; discriminate].
        intros ->. rewrite Ho. exact Hb. }
    split.
    - intros t y Ht0 NN.
      apply (newpoint_values X Xd h scheme sp1 seg Y Hh HL LXd); auto. intros i tau Hi. apply (Hii i Hi).
    - intros d t y Ht0 Hd Hdm. unfold newpoint_der.
      pose proof snap_pos as S1. pose proof snap_small as S2.
      destruct (Rlt_dec (Rabs (t - h * (INR (length X) - 1))) (h * snap)) as [Hend|Hend].
      + destruct (Z.leb_spec (Z.of_nat (length X)) (Z.of_nat (length X) - 2 + 1)); [lia|].
        replace (Z.of_nat (length X) - 2)%Z with (Z.of_nat (length X - 2)) by lia.
        replace (Z.of_nat (length X - 2) + 1)%Z with (Z.of_nat (length X - 2 + 1)) by lia.
        rewrite (pyget_nat X (length X - 2) []), (pyget_nat X (length X - 2 + 1) []), (pyget_nat Xd (length X - 2) []), (pyget_nat Xd (length X - 2 + 1) []) by lia.
        cbn [rbind]. destruct (Hii (length X - 2)%nat ltac:(lia)) as [_ E]. rewrite E by auto.
        intros HH. injection HH as <-.
        exists (length X - 2)%nat, ((INR (length X) - 1) * h).
        assert (EL : INR (length X - 2) = INR (length X) - 2) by (rewrite minus_INR by lia; reflexivity).
        split; [lia|]. split; [right; split; auto; rewrite (Rmult_comm _ h); auto|].
        rewrite EL. split; [nra|].
        destruct (HI (length X - 2)%nat ltac:(lia)) as [_ [B _]].
        split; [apply B; auto|]. intros k Hk.
        rewrite (smooth_derive_n _ _ _ _ _ _ _ d k h B (dmax_0 scheme) Hdm Hk). f_equal. ring.
      + pose proof (seg_bounds t h Hh) as B. pose proof (seg_time t h) as E.
        set (z := seg_index t h) in *. set (tau := seg_tau t h) in *. clearbody z tau.
        destruct (Z.leb_spec (Z.of_nat (length X)) (z + 1)); [discriminate|].
        assert (Hz0 : (0 <= z)%Z).
        { assert (IZR (-1) < IZR z) as HH by nra. apply lt_IZR in HH. lia. }
        assert (Ez : z = Z.of_nat (Z.to_nat z)) by lia. set (i := Z.to_nat z) in *. clearbody i. subst z.
        replace (Z.of_nat i + 1)%Z with (Z.of_nat (i + 1)) by lia.
        rewrite (pyget_nat X i []), (pyget_nat X (i + 1) []), (pyget_nat Xd i []), (pyget_nat Xd (i + 1) []) by lia.
        cbn [rbind]. destruct (Hii i ltac:(lia)) as [_ E2]. rewrite E2 by auto.
        intros HH. injection HH as <-. rewrite <- INR_IZR_INZ in E.
        exists i, t. split; [lia|]. split; [auto|]. split; [lra|].
        destruct (HI i ltac:(lia)) as [_ [B2 _]]. split; [apply B2; auto|]. intros k Hk.
        rewrite (smooth_derive_n _ _ _ _ _ _ _ d k tau B2 (dmax_0 scheme) Hdm Hk). f_equal. lra.
  Qed.

  Lemma driver scheme M n h X U sp :
    scheme_blocks scheme (sp_order sp) = Some M -> (0 < M)%nat -> (0 < n)%nat -> order_form M n F p -> 0 < h ->
    (2 <= length X)%nat -> (forall x, In x X -> length x = (M * n)%nat) ->
    sp_x_dot_c sp = None -> sp_x_c sp = None ->
    steps_hold F p scheme M n h X (full_controls X U) sp ->
    exists Y Z,
      (forall k t, (k < M * n)%nat -> continuous (fun s => vnth (Y s) k) t) /\
      on_samples X h Y /\
      pieces F p scheme M n h X (full_controls X U) sp Y Z /\
      (forall u_scheme ts nX nU sp', (forall t, In t ts -> 0 <= t) ->
         interpolated_array u_other hermite X U h ts p (Some F) None scheme u_scheme (Some sp) = Ok (nX, nU, sp') ->
         length nX = length ts /\
         forall k, (k < length ts)%nat -> is_value_of X h Y (nth k ts 0) (nth k nX [])) /\
      (forall d ts nX sp', (0 < d)%nat -> dmax_of scheme d -> (forall t, In t ts -> 0 <= t) ->
         interpolated_array_derivative X U h ts p (Some F) None scheme d (Some sp) = Ok (nX, sp') ->
         length nX = length ts /\
         forall k, (k < length ts)%nat -> is_derivative_of (M * n) X h Z d (nth k ts 0) (nth k nX [])).
  Proof.
    intros Hb HM Hn HF Hh HL HX Hs1 Hs2 Hst.
    assert (Hsci := scheme_not_scipy _ _ _ Hb).
    destruct (driver_core scheme M n h X (full_controls X U) sp Hb HM Hn HF Hh HL HX Hst) as [Y [Z [Y1 [Y3 [YP Yd]]]]].
    exists Y, Z. split; [exact Y1|]. split; [exact Y3|]. split; [exact YP|]. split.
    - intros u_scheme ts nX nU sp' Hts. unfold interpolated_array.
      destruct (mem scheme supported_schemes); cbn [negb]; [|discriminate].
      destruct (mem u_scheme supported_u_schemes); cbn [negb]; [|discriminate].
      destruct (contains "j" scheme && (u_scheme =? "parab")%string); [discriminate|].
      destruct (contains "j" u_scheme && negb (contains "j" scheme)); [discriminate|].
      destruct (if contains "hsn" scheme || contains "trapz_n" scheme then _ else _); cbn [rbind]; [|discriminate].
      destruct (prepare_interp X U h ts) as [[U' old_t]|e] eqn:EP; cbn [rbind]; [|discriminate].
      apply prepare_ok in EP. destruct EP as [EU [LU _]]. rewrite <- EU in *.
      destruct (calculate_missing X U' h p (Some F) None scheme u_scheme sp) as [[Xd sp1]|e] eqn:EM; cbn [rbind]; [|discriminate].
      apply missing_ok in EM; auto. destruct (Yd Xd sp1 EM) as [Yv _].
      destruct (interpolate_u _ _ _ _ _ _); cbn [rbind]; [|discriminate].
      apply String.eqb_neq in Hsci. rewrite Hsci.
      destruct (mapm _ ts) as [nX'|e] eqn:EN; cbn [rbind]; [|discriminate].
      intros H. injection H as -> _ _.
      apply mapm_ok in EN. destruct EN as [LN NN]. split; auto.
      intros k Hk. apply Yv; [apply Hts, nth_In; auto|]. apply NN. auto.
    - intros d ts nX sp' Hd Hdm Hts. unfold interpolated_array_derivative.
      destruct (mem scheme supported_schemes); cbn [negb]; [|discriminate].
      destruct (prepare_interp X U h ts) as [[U' old_t]|e] eqn:EP; cbn [rbind]; [|discriminate].
      apply prepare_ok in EP. destruct EP as [EU [LU _]]. rewrite <- EU in *.
      destruct (calculate_missing X U' h p (Some F) None scheme "None" sp) as [[Xd sp1]|e] eqn:EM; cbn [rbind]; [|discriminate].
      apply missing_ok in EM; auto. destruct (Yd Xd sp1 EM) as [_ Yv].
      apply String.eqb_neq in Hsci. rewrite Hsci.
      destruct (mapm _ ts) as [nX'|e] eqn:EN; cbn [rbind]; [|discriminate].
      intros H. injection H as -> _.
      apply mapm_ok in EN. destruct EN as [LN NN]. split; auto.
      intros k Hk. apply Yv; auto. apply Hts, nth_In; auto.
  Qed.
End Driver.
