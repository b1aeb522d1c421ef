(** Hermite splines. *)
From Coq Require Import String.
From Coquelicot Require Import Coquelicot.
From Verif Require Import Prelude PreludeFacts Poly PolyFacts Mat MatFacts PolyInterp SplineModel PsSpec SplineSpec.
Open Scope R_scope.
Open Scope list_scope.

Lemma strictly_up_iff x : strictly_up x = true <-> increasing x.
Proof.
  induction x as [|a [|b l] IH].
  - split; [intros _ i j L; simpl in L; lia|reflexivity].
  - split; [intros _ i j L; simpl in L; lia|reflexivity].
  - cbn [strictly_up]. destruct (Rlt_dec a b) as [L|L].
    + rewrite IH. split; intros H i j Hij.
      * destruct i as [|i].
        -- destruct j as [|[|j]]; [lia|exact L|]. apply Rlt_trans with b; [exact L|].
           apply (H 0%nat (S j)). simpl in *. lia.
        -- destruct j as [|j]; [lia|]. apply (H i j). simpl in *. lia.
      * apply (H (S i) (S j)). simpl in *. lia.
    + split; [discriminate|]. intros H. elim L. apply (H 0 1)%nat. simpl. lia.
Qed.

(** ** The interval of a time *)
Lemma filter_prefix {A} (f : A -> bool) (l : list A) k d : (k <= length l)%nat ->
  (forall j, (j < k)%nat -> f (nth j l d) = true) -> (forall j, (k <= j < length l)%nat -> f (nth j l d) = false) ->
  length (filter f l) = k.
Proof.
  revert k. induction l as [|a l IH]; intros k Hk Ht Hf; [simpl in *; lia|]. cbn [filter].
  destruct k as [|k].
  - assert (f a = false) as -> by (apply (Hf 0%nat); simpl; lia). apply IH; [lia|intros; lia|]. intros j Hj. apply (Hf (S j)). simpl. lia.
  - assert (f a = true) as -> by (apply (Ht 0%nat); lia). cbn [length]. f_equal. apply IH; [simpl in Hk; lia| |].
    + intros j Hj. apply (Ht (S j)). lia.
    + intros j Hj. apply (Hf (S j)). simpl. lia.
Qed.
Definition in_piece (x : vec) (i : nat) (t : R) : Prop :=
  (i + 1 < length x)%nat /\ (i = 0%nat \/ vnth x i <= t) /\ (t < vnth x (i + 1) \/ (i + 2 = length x)%nat).
Lemma vnth_tl x j : vnth (tl x) j = vnth x (S j).
Proof. destruct x; [now destruct j|reflexivity]. Qed.
Lemma interval_of x i t : increasing x -> in_piece x i t -> sp_interval x t = i.
Proof.
  intros I (Hi & Hl & Hr). unfold sp_interval.
  assert (LT : length (tl x) = (length x - 1)%nat) by (destruct x; simpl; lia).
  assert (T : forall j, (j < i)%nat -> vnth x (S j) <= t).
  { intros j Hj. destruct Hl as [->|Hl]; [lia|]. destruct (Nat.eq_dec (S j) i) as [->|NE]; [exact Hl|].
    apply Rle_trans with (vnth x i); [|exact Hl]. apply Rlt_le, I. lia. }
  destruct (Rlt_dec t (vnth x (i + 1))) as [L|L].
  - rewrite (filter_prefix _ (tl x) i 0); [lia|lia| |].
    + intros j Hj. fold (vnth (tl x) j). rewrite vnth_tl. destruct (Rle_dec (vnth x (S j)) t); [reflexivity|]. elim n. auto.
    + intros j Hj. fold (vnth (tl x) j). rewrite vnth_tl. destruct (Rle_dec (vnth x (S j)) t) as [C|]; [|reflexivity].
      assert (vnth x (i + 1) <= vnth x (S j)); [|lra].
      destruct (Nat.eq_dec (S j) (i + 1)) as [->|NE]; [lra|]. apply Rlt_le, I. lia.
  - destruct Hr as [C|Hr]; [contradiction|].
    rewrite (filter_prefix _ (tl x) (length x - 1) 0); [lia|lia| |].
    + intros j Hj. fold (vnth (tl x) j). rewrite vnth_tl. destruct (Rle_dec (vnth x (S j)) t); [reflexivity|]. elim n.
      destruct (Nat.eq_dec (S j) (i + 1)) as [->|NE]; [lra|]. apply T. lia.
    + intros j Hj. lia.
Qed.
Lemma piece_exists x t : (2 <= length x)%nat -> exists i, in_piece x i t.
Proof.
  intros L.
  assert (H : forall m, (m + 2 <= length x)%nat -> exists i, (i <= m)%nat /\ (i = 0%nat \/ vnth x i <= t) /\ (t < vnth x (i + 1) \/ i = m)).
  { induction m as [|m IH]; intros Hm.
    - exists 0%nat. split; [lia|]. split; auto.
    - destruct (Rle_dec (vnth x (S m)) t) as [C|C].
      + exists (S m). split; [lia|]. split; auto.
      + destruct IH as (i & A & B & D); [lia|]. exists i. split; [lia|]. split; [exact B|]. left.
        destruct D as [D| ->]; [exact D|]. rewrite Nat.add_1_r. lra. }
  destruct (H (length x - 2)%nat) as (i & A & B & D); [lia|]. exists i. split; [lia|]. split; [exact B|].
  destruct D as [D|D]; [now left|right; lia].
Qed.

(** ** Pieces *)
Definition pieces_of (s : spline) : list (list (list R)) :=
  map (fun i => map (fun c => pcomp_affine c (- vnth (sp_x s) i) 1) (nth i (sp_c s) [])) (seq 0 (length (sp_c s))).
Lemma iter_derivative k s : Nat.iter k sp_derivative s = Build_spline (sp_x s) (map (map (pderiv_n k)) (sp_c s)).
Proof.
  induction k as [|k IH].
  - cbn. destruct s as [x c]. f_equal. cbn. rewrite <- (map_id c) at 1. apply map_ext. intros p. cbn [pderiv_n]. symmetry. apply map_id.
  - cbn [Nat.iter nat_rect]. change (nat_rect (fun _ => spline) s (fun _ => sp_derivative) k) with (Nat.iter k sp_derivative s).
    rewrite IH. unfold sp_derivative. cbn [sp_x sp_c]. f_equal. rewrite map_map. apply map_ext. intros p. rewrite map_map.
    apply map_ext. intros c. now rewrite pderiv_n_S.
Qed.
Lemma eval_piece s k i t : increasing (sp_x s) -> (length (sp_c s) + 1 = length (sp_x s))%nat -> in_piece (sp_x s) i t ->
  sp_eval (Nat.iter k sp_derivative s) t = rate_n_at k (nth i (pieces_of s) []) t.
Proof.
  intros I L P. rewrite iter_derivative. unfold sp_eval. cbn [sp_x sp_c].
  rewrite (interval_of _ i) by assumption. destruct P as (Hi & _).
  change (@nil (list R)) with (map (pderiv_n k) []) at 1. rewrite map_nth, map_map.
  unfold rate_n_at, pieces_of. rewrite (nth_map' _ _ _ 0%nat) by (rewrite seq_length; lia). rewrite seq_nth by lia. rewrite map_map.
  cbn [Nat.add]. apply map_ext. intros c. rewrite Derive_n_peval, peval_pderiv_n_pcomp_affine, pow1, Rmult_1_l. f_equal. ring.
Qed.

(** ** The cubics *)
Lemma herm_coefs_ends h y0 y1 d0 d1 : h <> 0 -> let c := herm_coefs h y0 y1 d0 d1 in
  peval c 0 = y0 /\ peval c h = y1 /\ peval (pderiv c) 0 = d0 /\ peval (pderiv c) h = d1.
Proof. intros H c. unfold c, herm_coefs, pderiv. cbn [peval tl pder_from INR]. repeat split; field; exact H. Qed.
Lemma list_eq_vnth (a b : vec) : length a = length b -> (forall j, (j < length a)%nat -> vnth a j = vnth b j) -> a = b.
Proof. intros L H. apply (nth_ext a b 0 0 L H). Qed.

Section Hermite.
Variables (x : vec) (y d : mat) (n m : nat).
Hypothesis Hn : (2 <= n)%nat.
Hypothesis LX : length x = n.
Hypothesis SY : shaped n m y.
Hypothesis SD : shaped n m d.
Hypothesis I : increasing x.

Definition the_spline : spline := Build_spline x (map (fun i =>
  herm_piece (vnth x (i + 1) - vnth x i) (mrow i y) (mrow (i + 1) y) (mrow i d) (mrow (i + 1) d)) (seq 0 (length x - 1))).
Lemma hermite_ok : hermite x y d = Ok the_spline.
Proof.
  unfold hermite. rewrite LX, (shaped_length _ _ _ SY), (shaped_length _ _ _ SD), Nat.eqb_refl.
  rewrite (proj2 (strictly_up_iff x) I). destruct (Nat.ltb_spec n 2); [lia|]. cbn [negb]. unfold the_spline. now rewrite LX.
Qed.
Lemma row_length A i : shaped n m A -> (i < n)%nat -> length (mrow i A) = m.
Proof. intros [L F] H. unfold mrow. rewrite Forall_forall in F. apply F. apply nth_In. lia. Qed.

Lemma the_pieces : hermite_cubics x y d (pieces_of the_spline).
Proof.
  split.
  - unfold pieces_of. rewrite map_length, seq_length. cbn [sp_c the_spline]. now rewrite map_length, seq_length.
  - intros i Hi. rewrite LX in Hi.
    assert (E : nth i (pieces_of the_spline) [] = map (fun j => pcomp_affine (herm_coefs (vnth x (i + 1) - vnth x i)
       (vnth (mrow i y) j) (vnth (mrow (i + 1) y) j) (vnth (mrow i d) j) (vnth (mrow (i + 1) d) j)) (- vnth x i) 1) (seq 0 m)).
    { unfold pieces_of. rewrite (nth_map' _ _ _ 0%nat) by (cbn [sp_c the_spline]; rewrite seq_length, map_length, seq_length; lia).
      rewrite seq_nth by (cbn [sp_c the_spline]; rewrite map_length, seq_length; lia). cbn [sp_c sp_x the_spline Nat.add].
      rewrite (nth_map' _ _ _ 0%nat) by (rewrite seq_length; lia). rewrite seq_nth by lia. unfold herm_piece. rewrite map_map.
      rewrite row_length by (auto; lia). reflexivity. }
    rewrite E. clear E.
    assert (H0 : vnth x (i + 1) - vnth x i <> 0) by (assert (vnth x i < vnth x (i + 1)) by (apply I; lia); lra).
    assert (A : forall k (t : R) (v : vec), length v = m -> (forall j, (j < m)%nat ->
        peval (pderiv_n k (herm_coefs (vnth x (i + 1) - vnth x i) (vnth (mrow i y) j) (vnth (mrow (i + 1) y) j) (vnth (mrow i d) j) (vnth (mrow (i + 1) d) j))) (t - vnth x i) = vnth v j) ->
      rate_n_at k (map (fun j => pcomp_affine (herm_coefs (vnth x (i + 1) - vnth x i)
       (vnth (mrow i y) j) (vnth (mrow (i + 1) y) j) (vnth (mrow i d) j) (vnth (mrow (i + 1) d) j)) (- vnth x i) 1) (seq 0 m)) t = v).
    { intros k t v Lv H. unfold rate_n_at. rewrite map_map. apply list_eq_vnth; [rewrite map_length, seq_length; lia|].
      rewrite map_length, seq_length. intros j Hj. unfold vnth at 1. rewrite (nth_map' _ _ _ 0%nat) by (rewrite seq_length; lia).
      rewrite seq_nth by lia. rewrite Derive_n_peval, peval_pderiv_n_pcomp_affine, pow1, Rmult_1_l.
      rewrite <- H by exact Hj. cbn [Nat.add]. f_equal. ring. }
    split.
    { apply Forall_map, Forall_forall. intros j _. rewrite pcomp_affine_length. unfold herm_coefs. simpl. lia. }
    assert (SE : forall P t, state_at P t = rate_n_at 0 P t) by reflexivity.
    split; [|split; [|split]]; [rewrite SE|rewrite SE| |]; apply A; try (apply row_length; auto; lia); intros j Hj;
      destruct (herm_coefs_ends _ (vnth (mrow i y) j) (vnth (mrow (i + 1) y) j) (vnth (mrow i d) j) (vnth (mrow (i + 1) d) j) H0) as (B1 & B2 & B3 & B4);
      rewrite ?Rminus_eq_0; cbn [pderiv_n]; assumption.
Qed.

Lemma the_lengths : (length (sp_c the_spline) + 1 = length (sp_x the_spline))%nat.
Proof. cbn [sp_c sp_x the_spline]. rewrite map_length, seq_length. lia. Qed.
Lemma the_eval k i t : in_piece x i t -> sp_eval (Nat.iter k sp_derivative the_spline) t = rate_n_at k (nth i (pieces_of the_spline) []) t.
Proof. intros P. apply eval_piece; [exact I|exact the_lengths|exact P]. Qed.
Lemma the_follows : follows_cubics x (pieces_of the_spline) (fun k t => sp_eval (Nat.iter k sp_derivative the_spline) t).
Proof. intros k i t Hi H1 H2 H3. apply the_eval. split; [exact Hi|]. auto. Qed.
End Hermite.

(** Curves of two halves. *)
Lemma is_derive_halves (f p q : R -> R) a l : p a = q a -> is_derive p a l -> is_derive q a l ->
  locally a (fun s => f s = if Rlt_dec s a then p s else q s) -> is_derive f a l.
Proof.
  intros E Dp Dq L.
  apply (is_derive_ext_loc (fun s => if Rlt_dec s a then p s else q s)).
  { revert L. apply filter_imp. intros s ->. reflexivity. }
  apply is_derive_Reals. apply is_derive_Reals in Dp, Dq. intros eps He.
  destruct (Dp eps He) as [d1 H1]. destruct (Dq eps He) as [d2 H2].
  assert (M : 0 < Rmin d1 d2) by (apply Rmin_pos; apply cond_pos).
  exists (mkposreal _ M). intros h Hh Hd. cbn in Hd.
  assert (Rabs h < d1) by (apply Rlt_le_trans with (1 := Hd); apply Rmin_l).
  assert (Rabs h < d2) by (apply Rlt_le_trans with (1 := Hd); apply Rmin_r).
  destruct (Rlt_dec a a); [lra|]. destruct (Rlt_dec (a + h) a).
  - rewrite <- E. now apply H1.
  - now apply H2.
Qed.
Lemma continuous_halves (f p q : R -> R) a : p a = q a -> continuous p a -> continuous q a ->
  locally a (fun s => f s = if Rlt_dec s a then p s else q s) -> continuous f a.
Proof.
  intros E Cp Cq L.
  apply (continuous_ext_loc _ (fun s => if Rlt_dec s a then p s else q s)).
  { revert L. apply filter_imp. intros s ->. reflexivity. }
  intros Q HQ. destruct (Rlt_dec a a); [lra|].
  assert (HQ' : locally (p a) Q) by (rewrite E; exact HQ).
  generalize (Cp Q HQ') (Cq Q HQ). unfold filtermap. intros H1 H2.
  generalize (filter_and _ _ H1 H2). apply filter_imp. intros y [Q1 Q2].
  destruct (Rlt_dec y a); auto.
Qed.

Section Smooth.
Variables (x : vec) (y d : mat) (n m : nat).
Hypothesis Hn : (2 <= n)%nat.
Hypothesis LX : length x = n.
Hypothesis SY : shaped n m y.
Hypothesis SD : shaped n m d.
Hypothesis I : increasing x.
Let s := the_spline x y d.
Let Ps := pieces_of s.

Lemma piece_comps i : (i + 1 < n)%nat -> length (nth i Ps []) = m.
Proof.
  intros Hi. destruct (the_pieces x y d n m Hn LX SY SD I) as [_ H]. destruct (H i) as (_ & H1 & _); [lia|].
  apply (f_equal (@length R)) in H1. unfold state_at in H1. rewrite map_length in H1. fold s Ps in H1. rewrite H1.
  eapply row_length; eauto. lia.
Qed.
Lemma comp_eval k i t j : in_piece x i t -> (j < m)%nat ->
  vnth (sp_eval (Nat.iter k sp_derivative s) t) j = peval (pderiv_n k (nth j (nth i Ps []) [])) t.
Proof.
  intros P Hj. unfold s. rewrite (the_eval x y d n Hn LX I k i t P). fold s Ps. unfold rate_n_at, vnth.
  rewrite (nth_map' _ _ _ []) by (rewrite piece_comps; [exact Hj|destruct P; lia]). apply Derive_n_peval.
Qed.
(** Around a time inside a piece, or at the start of one. *)
Lemma near i t : in_piece x i t ->
  (locally t (in_piece x i)) \/
  (exists i', i = S i' /\ t = vnth x i /\ locally t (fun r => if Rlt_dec r t then in_piece x i' r else in_piece x i r)).
Proof.
  intros (Hi & Hl & Hr).
  assert (R1 : locally t (fun r => r < vnth x (i + 1) \/ (i + 2 = length x)%nat)).
  { destruct Hr as [Hr|Hr]; [|now apply filter_forall; right].
    assert (He : 0 < vnth x (i + 1) - t) by lra. exists (mkposreal _ He). intros r B.
    assert (B' : Rabs (r - t) < vnth x (i + 1) - t) by exact B. apply Rabs_def2 in B'. left. lra. }
  destruct (Nat.eq_dec i 0) as [->|N0].
  - left. revert R1. apply filter_imp. intros r B. split; [exact Hi|]. auto.
  - destruct Hl as [?|Hl]; [contradiction|]. destruct (Rle_lt_or_eq_dec _ _ Hl) as [Hl'|Hl'].
    + left. assert (He : 0 < t - vnth x i) by lra.
      assert (R2 : locally t (fun r => vnth x i <= r)).
      { exists (mkposreal _ He). intros r B. assert (B' : Rabs (r - t) < t - vnth x i) by exact B. apply Rabs_def2 in B'. lra. }
      generalize (filter_and _ _ R1 R2). apply filter_imp. intros r [B1 B2]. split; [exact Hi|]. auto.
    + right. destruct i as [|i]; [contradiction|]. exists i. split; [reflexivity|]. split; [auto|].
      assert (He : 0 < t - vnth x i) by (rewrite <- Hl'; assert (vnth x i < vnth x (S i)) by (apply I; lia); lra).
      assert (R2 : locally t (fun r => vnth x i <= r)).
      { exists (mkposreal _ He). intros r B. assert (B' : Rabs (r - t) < t - vnth x i) by exact B. apply Rabs_def2 in B'. lra. }
      generalize (filter_and _ _ R1 R2). apply filter_imp. intros r [B1 B2]. destruct (Rlt_dec r t) as [C|C].
      * split; [lia|]. split; [auto|]. left. rewrite Nat.add_1_r, Hl'. exact C.
      * split; [exact Hi|]. split; [right; rewrite Hl'; lra|exact B1].
Qed.
(** Two pieces that meet have the same value and derivative there. *)
Lemma pieces_meet k i j : (k <= 1)%nat -> (S i + 1 < n)%nat -> (j < m)%nat ->
  peval (pderiv_n k (nth j (nth i Ps []) [])) (vnth x (S i)) = peval (pderiv_n k (nth j (nth (S i) Ps []) [])) (vnth x (S i)).
Proof.
  intros Hk Hi Hj. destruct (the_pieces x y d n m Hn LX SY SD I) as [_ H]. fold s Ps in H.
  destruct (H i) as (_ & _ & A1 & _ & A2); [lia|]. destruct (H (S i)) as (_ & B1 & _ & B2 & _); [lia|].
  rewrite Nat.add_1_r in A1, A2. rewrite <- B1 in A1. rewrite <- B2 in A2.
  assert (L1 : length (nth i Ps []) = m) by (apply piece_comps; lia).
  assert (L2 : length (nth (S i) Ps []) = m) by (apply piece_comps; lia).
  destruct k as [|[|k]]; [| |lia].
  - apply (f_equal (fun v => nth j v 0)) in A1. unfold state_at in A1. rewrite !(nth_map' _ _ _ []) in A1 by lia. exact A1.
  - apply (f_equal (fun v => nth j v 0)) in A2. unfold rate_n_at in A2. rewrite !(nth_map' _ _ _ []) in A2 by lia.
    rewrite !Derive_n_peval in A2. exact A2.
Qed.
Lemma the_smooth : smooth_through x y d m (sp_eval s) (sp_eval (sp_derivative s)).
Proof.
  assert (D : forall t j, (j < m)%nat -> is_derive (fun r => vnth (sp_eval s r) j) t (vnth (sp_eval (sp_derivative s) t) j)).
  { intros t j Hj. destruct (piece_exists x t) as [i P]; [lia|].
    change (sp_derivative s) with (Nat.iter 1 sp_derivative s). rewrite (comp_eval 1 i t j P Hj). cbn [pderiv_n].
    destruct (near i t P) as [N|(i' & -> & Et & N)].
    - apply (is_derive_ext_loc (peval (nth j (nth i Ps []) []))); [|apply is_derive_peval].
      revert N. apply filter_imp. intros r Pr. symmetry. exact (comp_eval 0 i r j Pr Hj).
    - assert (Hi : (S i' + 1 < n)%nat) by (destruct P; lia).
      apply (is_derive_halves _ (peval (nth j (nth i' Ps []) [])) (peval (nth j (nth (S i') Ps []) []))).
      + rewrite Et. exact (pieces_meet 0 i' j ltac:(lia) Hi Hj).
      + assert (M1 := pieces_meet 1 i' j ltac:(lia) Hi Hj). cbn [pderiv_n] in M1. rewrite <- Et in M1. rewrite <- M1. apply is_derive_peval.
      + apply is_derive_peval.
      + revert N. apply filter_imp. intros r Pr. destruct (Rlt_dec r t).
        * exact (comp_eval 0 i' r j Pr Hj).
        * exact (comp_eval 0 (S i') r j Pr Hj). }
  split; [|split; [exact D|]].
  - intros i Hi. destruct (the_pieces x y d n m Hn LX SY SD I) as [_ H]. fold s Ps in H.
    destruct (Nat.eq_dec (i + 1) n) as [En|Nn].
    + assert (P : in_piece x (i - 1) (vnth x i)).
      { split; [lia|]. split; [|right; lia]. right. apply Rlt_le, I. lia. }
      destruct (H (i - 1)%nat) as (_ & _ & A & _ & B); [lia|]. replace (i - 1 + 1)%nat with i in A, B by lia.
      split; [rewrite <- A; exact (the_eval x y d n Hn LX I 0 _ _ P)|rewrite <- B; exact (the_eval x y d n Hn LX I 1 _ _ P)].
    + assert (P : in_piece x i (vnth x i)).
      { split; [lia|]. split; [right; lra|]. left. apply I. lia. }
      destruct (H i) as (_ & A & _ & B & _); [lia|].
      split; [rewrite <- A; exact (the_eval x y d n Hn LX I 0 _ _ P)|rewrite <- B; exact (the_eval x y d n Hn LX I 1 _ _ P)].
  - intros t j Hj. destruct (piece_exists x t) as [i P]; [lia|].
    destruct (near i t P) as [N|(i' & -> & Et & N)].
    + apply (continuous_ext_loc _ (peval (pderiv (nth j (nth i Ps []) [])))); [|apply continuous_peval].
      revert N. apply filter_imp. intros r Pr. symmetry. exact (comp_eval 1 i r j Pr Hj).
    + assert (Hi : (S i' + 1 < n)%nat) by (destruct P; lia).
      apply (continuous_halves _ (peval (pderiv (nth j (nth i' Ps []) []))) (peval (pderiv (nth j (nth (S i') Ps []) [])))).
      * rewrite Et. exact (pieces_meet 1 i' j ltac:(lia) Hi Hj).
      * apply continuous_peval.
      * apply continuous_peval.
      * revert N. apply filter_imp. intros r Pr. destruct (Rlt_dec r t).
        -- exact (comp_eval 1 i' r j Pr Hj).
        -- exact (comp_eval 1 (S i') r j Pr Hj).
Qed.
End Smooth.
