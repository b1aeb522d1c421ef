(** Barycentric weights, differentiation matrix, interpolation (C22-C25). *)
From Coq Require Import String.
From Verif Require Import Prelude PreludeFacts Poly PolyFacts PolyInterp Mat MatFacts
  PwInterpModel PsModel PsSpec.
Open Scope R_scope.
Open Scope list_scope.

Lemma mapm_Ok {A B} (f : A -> B) l : mapm (fun a => Ok (f a)) l = Ok (map f l).
Proof. induction l; simpl; [reflexivity|]. now rewrite IHl. Qed.
Lemma mapm_ext {A B} (f g : A -> Res B) l : (forall a, In a l -> f a = g a) -> mapm f l = mapm g l.
Proof.
  induction l; simpl; intros H; [reflexivity|]. rewrite (H a) by now left.
  rewrite IHl; [reflexivity|]. intros; apply H; now right.
Qed.

(** ** The weights *)
Lemma npmax_ge l x : In x l -> x <= npmax l.
Proof.
  destruct l as [|a l]; simpl; [easy|]. revert a x.
  assert (H : forall l a x, (x = a \/ In x l) -> x <= fold_right Rmax a l).
  { clear. induction l as [|b l IH]; intros a x H; simpl.
    - destruct H as [->|[]]. lra.
    - destruct H as [->|[->|H]].
      + eapply Rle_trans; [apply (IH a a); now left|apply Rmax_r].
      + apply Rmax_l.
      + eapply Rle_trans; [apply (IH a x); now right|apply Rmax_r]. }
  intros a x [->|K]; apply H; [now left|now right].
Qed.
Lemma npmin_le l x : In x l -> npmin l <= x.
Proof.
  destruct l as [|a l]; simpl; [easy|]. revert a x.
  assert (H : forall l a x, (x = a \/ In x l) -> fold_right Rmin a l <= x).
  { clear. induction l as [|b l IH]; intros a x H; simpl.
    - destruct H as [->|[]]. lra.
    - destruct H as [->|[->|H]].
      + eapply Rle_trans; [apply Rmin_r|apply (IH a a); now left].
      + apply Rmin_l.
      + eapply Rle_trans; [apply Rmin_r|apply (IH a x); now right]. }
  intros a x [->|K]; apply H; [now left|now right].
Qed.
Lemma spread_pos ts : NoDup ts -> (2 <= length ts)%nat -> 0 < npmax ts - npmin ts.
Proof.
  intros N L. destruct ts as [|a [|b ts]]; simpl in L; try lia.
  assert (a <> b). { inversion N as [|? ? K]; subst. intros ->. apply K. now left. }
  assert (A := npmax_ge (a :: b :: ts) a (or_introl eq_refl)).
  assert (B := npmax_ge (a :: b :: ts) b (or_intror (or_introl eq_refl))).
  assert (C := npmin_le (a :: b :: ts) a (or_introl eq_refl)).
  assert (D := npmin_le (a :: b :: ts) b (or_intror (or_introl eq_refl))).
  destruct (Rtotal_order a b) as [K|[K|K]]; lra.
Qed.

Lemma map_pop_at {A B} (f : A -> B) i l : map f (pop_at i l) = pop_at i (map f l).
Proof. unfold pop_at. now rewrite map_app, firstn_map, skipn_map. Qed.
Lemma map_vnth_seq (l : vec) : map (vnth l) (seq 0 (length l)) = l.
Proof.
  apply vec_ext.
  - now rewrite map_length, seq_length.
  - intros i Hi. rewrite map_length, seq_length in Hi. now rewrite vnth_map_seq.
Qed.

Lemma prod_scaled k t l : fold_right Rmult 1 (map (fun s => k * t - k * s) l)
  = k ^ length l * peval (pfromroots l) t.
Proof.
  rewrite peval_pfromroots. induction l; simpl; [ring|]. rewrite IHl. ring.
Qed.

Lemma v_sum_closed ts i : (i < length ts)%nat ->
  v_sum ts i = INR (length ts) /
    ((4 / (npmax ts - npmin ts)) ^ (length ts - 1) * peval (nodal ts i) (vnth ts i)).
Proof.
  intros H. unfold v_sum. f_equal.
  set (k := 4 / (npmax ts - npmin ts)).
  rewrite map_pop_at.
  replace (length ts) with (length (map (fun t => vnth (vscale k ts) i - t) (vscale k ts))) at 1
    by (rewrite map_length, vscale_length; reflexivity).
  rewrite map_vnth_seq. rewrite vnth_vscale.
  unfold vscale. rewrite map_map, <- map_pop_at, prod_scaled, pop_at_length by exact H. reflexivity.
Qed.

(** The weights are the exact ones up to a common non-zero factor. *)
Definition v_factor (ts : vec) : R :=
  INR (length ts) / (4 / (npmax ts - npmin ts)) ^ (length ts - 1).
Lemma v_factor_neq0 ts : NoDup ts -> (0 < length ts)%nat -> v_factor ts <> 0.
Proof.
  intros N L. unfold v_factor, Rdiv at 1.
  apply Rmult_integral_contrapositive_currified; [apply not_0_INR; lia|].
  apply Rinv_neq_0_compat.
  destruct (Nat.eq_dec (length ts) 1) as [->|]; [simpl; lra|].
  apply pow_nonzero. assert (P := spread_pos ts N ltac:(lia)).
  assert (0 < 4 / (npmax ts - npmin ts)) by (apply Rdiv_lt_0_compat; lra). lra.
Qed.
Lemma v_sum_bweight ts i : NoDup ts -> (i < length ts)%nat -> v_sum ts i = v_factor ts * bweight ts i.
Proof.
  intros N H. rewrite v_sum_closed by exact H. unfold v_factor, bweight.
  assert (A := nodal_self_neq0 ts i N H).
  assert (B := v_factor_neq0 ts N ltac:(lia)). unfold v_factor in B.
  set (p := (4 / (npmax ts - npmin ts)) ^ (length ts - 1)) in *.
  assert (p <> 0).
  { unfold p. destruct (Nat.eq_dec (length ts) 1) as [->|]; [simpl; lra|].
    apply pow_nonzero. assert (P := spread_pos ts N ltac:(lia)).
    assert (0 < 4 / (npmax ts - npmin ts)) by (apply Rdiv_lt_0_compat; lra). lra. }
  field. auto.
Qed.
Lemma v_sum_neq0 ts i : NoDup ts -> (i < length ts)%nat -> v_sum ts i <> 0.
Proof.
  intros N H. rewrite v_sum_bweight by auto.
  apply Rmult_integral_contrapositive_currified; [apply v_factor_neq0; auto; lia|now apply bweight_neq0].
Qed.

(** ** Lagrange polynomials (C22) *)
Lemma lag_pol_eval labels j x : peval (lag_pol labels j) x
  = fold_right (fun m acc => if Req_EM_T m (vnth labels j) then acc
                             else (x - m) / (vnth labels j - m) * acc) 1 labels.
Proof.
  unfold lag_pol. set (c := vnth labels j). clearbody c. induction labels as [|m l IH]; cbn [fold_right].
  - simpl. ring.
  - destruct (Req_EM_T m c) as [|N]; [exact IH|].
    rewrite peval_pmul, IH. f_equal. simpl. field. intros K. apply N. lra.
Qed.
Lemma lag_pol_self labels j : peval (lag_pol labels j) (vnth labels j) = 1.
Proof.
  rewrite lag_pol_eval. set (c := vnth labels j). clearbody c. induction labels as [|m l IH]; simpl; [reflexivity|].
  destruct (Req_EM_T m c) as [|N]; [exact IH|]. rewrite IH. field. intros K. apply N. lra.
Qed.
Lemma lag_pol_other labels j m : In m labels -> m <> vnth labels j -> peval (lag_pol labels j) m = 0.
Proof.
  intros I N. rewrite lag_pol_eval. set (c := vnth labels j) in *. clearbody c.
  induction labels as [|a l IH]; simpl; [easy|].
  destruct I as [->|I].
  - destruct (Req_EM_T m c); [contradiction|]. unfold Rdiv. replace (m - m) with 0 by ring. ring.
  - destruct (Req_EM_T a c); [now apply IH|]. rewrite IH by exact I. ring.
Qed.
Lemma lag_pol_length labels j : (j < length labels)%nat -> (length (lag_pol labels j) <= length labels)%nat.
Proof.
  intros H. unfold lag_pol.
  assert (I : In (vnth labels j) labels) by now apply nth_In.
  set (c := vnth labels j) in *. clearbody c. clear H.
  set (F := fun m acc => if Req_EM_T m c then acc else pmul [- m / (c - m); 1 / (c - m)] acc).
  assert (G : forall l, (length (fold_right F [1%R] l) <= S (length l))%nat
    /\ fold_right F [1%R] l <> []).
  { induction l as [|a l [IH NE]]; simpl fold_right; [split; [simpl; lia|discriminate]|].
    unfold F at 1 3. destruct (Req_EM_T a c); [split; [simpl; lia|exact NE]|].
    split.
    - rewrite pmul_length; [simpl in *; lia|exact NE|discriminate].
    - intros K. apply (f_equal (@length R)) in K. rewrite pmul_length in K; [|exact NE|discriminate].
      cbn [length] in K. destruct (fold_right _ _ l); [now apply NE|simpl in K; lia]. }
  induction labels as [|a l IH]; [easy|]. cbn [fold_right]. unfold F at 1.
  destruct (Req_EM_T a c) as [E|N].
  - apply G.
  - destruct I as [E|I]; [contradiction|].
    destruct (G l) as [_ NE]. rewrite pmul_length; [|exact NE|discriminate].
    specialize (IH I). cbn [length]. lia.
Qed.
Lemma lag_pol_interp ts j : NoDup ts -> (j < length ts)%nat ->
  forall x, peval (lag_pol ts j) x = peval (lagr ts j) x.
Proof.
  intros N H.
  apply (interpolates_unique ts (map (peval (lagr ts j)) ts)); [exact N| |].
  - split; [now apply lag_pol_length|]. intros i Hi. unfold vnth at 2. rewrite (nth_map' _ _ _ 0) by exact Hi.
    change (nth i ts 0) with (vnth ts i). rewrite lagr_at by auto.
    destruct (Nat.eqb_spec j i) as [<-|E]; [apply lag_pol_self|].
    apply lag_pol_other; [now apply nth_In|]. intros K. apply E. symmetry. now apply (NoDup_vnth ts).
  - apply interpolates_self. rewrite lagr_length by exact H. lia.
Qed.

Lemma fold_padd_length n (l : list (list R)) : (forall c, In c l -> (length c <= n)%nat) ->
  (length (fold_right padd [] l) <= n)%nat.
Proof.
  induction l; simpl; intros H; [lia|]. rewrite padd_length.
  apply Nat.max_lub; [apply H; now left|apply IHl; intros; apply H; now right].
Qed.
Lemma peval_fold_padd (l : list (list R)) x :
  peval (fold_right padd [] l) x = fold_right Rplus 0 (map (fun c => peval c x) l).
Proof. induction l; simpl; [reflexivity|]. now rewrite peval_padd, IHl. Qed.

Lemma lagrangePolynomial_interp ts ys : NoDup ts -> length ys = length ts ->
  interpolates ts ys (lagrangePolynomial ts ys).
Proof.
  intros N L. split.
  - unfold lagrangePolynomial. apply fold_padd_length. intros c I. apply in_map_iff in I.
    destruct I as (j & <- & I). apply in_seq in I. rewrite pscale_length. apply lag_pol_length. lia.
  - intros i Hi. unfold lagrangePolynomial. rewrite peval_fold_padd, map_map.
    change (fold_right Rplus 0) with vsum. rewrite vsum_map_seq, L.
    rewrite (rsum_ext _ _ (fun j => if (j =? i)%nat then vnth ys j else 0)).
    + now rewrite rsum_delta.
    + intros j Hj. rewrite peval_pscale, lag_pol_interp, lagr_at by auto.
      destruct (j =? i)%nat; ring.
Qed.

(** ** Barycentric interpolation (C23) *)
Lemma dict_get_none ts ys t : ~ In t ts -> dict_get ts ys t = None.
Proof.
  unfold dict_get. intros H.
  assert (G : forall l acc, (forall p, In p l -> fst p <> t) ->
    fold_left (fun acc (ty : R * R) => if Req_EM_T (fst ty) t then Some (snd ty) else acc) l acc = acc).
  { induction l as [|p l IH]; intros acc K; simpl; [reflexivity|].
    destruct (Req_EM_T (fst p) t) as [E|]; [exfalso; apply (K p); [now left|exact E]|].
    apply IH. intros q I. apply K. now right. }
  apply G. intros [a b] I. apply in_combine_l in I. simpl. intros ->. contradiction.
Qed.
Lemma dict_get_node ts ys i : NoDup ts -> (i < length ts)%nat -> (i < length ys)%nat ->
  dict_get ts ys (vnth ts i) = Some (vnth ys i).
Proof.
  unfold dict_get.
  assert (G : forall ts ys i acc, NoDup ts -> (i < length ts)%nat -> (i < length ys)%nat ->
    fold_left (fun acc (ty : R * R) => if Req_EM_T (fst ty) (vnth ts i) then Some (snd ty) else acc)
      (combine ts ys) acc = Some (vnth ys i)).
  { clear. induction ts as [|a ts IH]; intros ys i acc N Hi Hy; [simpl in Hi; lia|].
    destruct ys as [|y ys]; [simpl in Hy; lia|]. inversion N as [|? ? Na Nt]; subst.
    destruct i as [|i]; simpl.
    - unfold vnth; simpl. destruct (Req_EM_T a a); [|congruence].
      assert (D := dict_get_none ts ys a Na). unfold dict_get in D.
      revert D. generalize (combine ts ys). clear. intros l.
      assert (K : forall l acc, fold_left (fun acc (ty : R * R) => if Req_EM_T (fst ty) a then Some (snd ty) else acc) l acc
        = match fold_left (fun acc (ty : R * R) => if Req_EM_T (fst ty) a then Some (snd ty) else acc) l None with
          | Some z => Some z | None => acc end).
      { clear. induction l as [|p l IH]; intros acc; simpl; [reflexivity|].
        destruct (Req_EM_T (fst p) a); [|apply IH].
        rewrite IH. symmetry. rewrite IH. now destruct (fold_left _ l None). }
      intros D. rewrite K, D. reflexivity.
    - unfold vnth; simpl. change (nth i ts 0) with (vnth ts i). change (nth i ys 0) with (vnth ys i).
      apply IH; [exact Nt|simpl in Hi; lia|simpl in Hy; lia]. }
  intros. now apply G.
Qed.

Lemma bary_poly_correct ts ys c t : NoDup ts -> (0 < length ts)%nat -> length ys = length ts ->
  interpolates ts ys c -> bary_poly ts ys t = peval c t.
Proof.
  intros N L Ly I. unfold bary_poly.
  destruct (in_dec Req_EM_T t ts) as [K|K].
  - destruct (In_nth _ _ 0 K) as (i & Hi & <-). change (nth i ts 0) with (vnth ts i).
    rewrite dict_get_node by (auto; lia). symmetry. now apply I.
  - rewrite dict_get_none by exact K.
    rewrite (barycentric ts ys c (v_sum ts) (v_factor ts) t N I L (v_factor_neq0 ts N L)
       (fun i Hi => v_sum_bweight ts i N Hi) K).
    assert (S : forall l : list R, length l = length ts ->
      vsum (map2 Rdiv l (map (fun s => t - s) ts)) = rsum (length ts) (fun i => vnth l i / (t - vnth ts i))).
    { intros l Hl. rewrite vsum_rsum, map2_length, map_length, Hl, Nat.min_id. apply rsum_ext.
      intros i Hi. unfold vnth at 1. rewrite (nth_map2 _ _ _ _ 0 0) by (rewrite ?map_length; lia).
      rewrite (nth_map' _ _ _ 0) by exact Hi. reflexivity. }
    rewrite !S.
    + f_equal; apply rsum_ext; intros i Hi.
      * rewrite vnth_vmul by (rewrite map_length, seq_length; lia). rewrite vnth_map_seq by exact Hi. reflexivity.
      * rewrite vnth_map_seq by exact Hi. reflexivity.
    + now rewrite map_length, seq_length.
    + rewrite vmul_length, map_length, seq_length. lia.
Qed.

Lemma bary_poly_node ts ys i : NoDup ts -> (i < length ts)%nat -> length ys = length ts ->
  bary_poly ts ys (vnth ts i) = vnth ys i.
Proof. intros N H L. unfold bary_poly. rewrite dict_get_node by (auto; lia). reflexivity. Qed.

Lemma bary_poly_2d_correct ts Y m cs t : NoDup ts -> (0 < length ts)%nat -> shaped (length ts) m Y ->
  length cs = m -> traj_through ts Y cs -> bary_poly_2d ts Y t = state_at cs t.
Proof.
  intros N L S Lc T. unfold bary_poly_2d, state_at.
  rewrite (shaped_mwidth (length ts) m) by auto.
  apply vec_ext.
  - now rewrite !map_length, seq_length.
  - intros j Hj. rewrite map_length, seq_length in Hj. rewrite vnth_map_seq by exact Hj.
    unfold vnth. rewrite (nth_map' _ _ _ []) by lia. simpl.
    apply bary_poly_correct; auto.
    + now rewrite mcol_length, (shaped_length _ _ _ S).
    + apply T. lia.
Qed.

(** ** The differentiation matrix (C24) *)
Definition Dmat (ts : vec) : mat :=
  D_diag (D_offdiag (length ts) ts (map (v_sum ts) (seq 0 (length ts)))).

Lemma D_offdiag_length N ts v : length (D_offdiag N ts v) = N.
Proof. unfold D_offdiag. now rewrite map_length, seq_length. Qed.
Lemma mget_D_offdiag ts i j : NoDup ts -> (i < length ts)%nat -> (j < length ts)%nat ->
  mget (D_offdiag (length ts) ts (map (v_sum ts) (seq 0 (length ts)))) i j
  = if (j =? i)%nat then 0 else peval (pderiv (lagr ts j)) (vnth ts i).
Proof.
  intros N Hi Hj. unfold mget, mrow, D_offdiag.
  rewrite (nth_map' _ _ _ 0%nat) by now rewrite seq_length. rewrite seq_nth by exact Hi.
  rewrite vnth_map_seq by exact Hj. simpl plus.
  destruct (Nat.eqb_spec j i) as [|E]; [reflexivity|].
  rewrite !vnth_map_seq by assumption. simpl plus.
  rewrite lagr_deriv_off by auto. f_equal. rewrite !v_sum_bweight by auto.
  field. split; [now apply bweight_neq0|apply v_factor_neq0; auto; lia].
Qed.
Lemma Dmat_shaped ts : shaped (length ts) (length ts) (Dmat ts).
Proof.
  unfold Dmat, D_diag. rewrite D_offdiag_length. split.
  - now rewrite map_length, seq_length.
  - apply Forall_forall. intros r I. apply in_map_iff in I. destruct I as (i & <- & _).
    now rewrite map_length, seq_length.
Qed.
Lemma mget_Dmat ts i j : NoDup ts -> (i < length ts)%nat -> (j < length ts)%nat ->
  mget (Dmat ts) i j = peval (pderiv (lagr ts j)) (vnth ts i).
Proof.
  intros N Hi Hj. unfold mget at 1, mrow, Dmat, D_diag. rewrite D_offdiag_length.
  rewrite (nth_map' _ _ _ 0%nat) by now rewrite seq_length. rewrite seq_nth by exact Hi.
  rewrite vnth_map_seq by exact Hj. simpl plus.
  destruct (Nat.eqb_spec j i) as [->|E].
  - rewrite lagr_deriv_diag by auto. f_equal. rewrite vsum_rsum.
    assert (Lr : length (mrow i (D_offdiag (length ts) ts (map (v_sum ts) (seq 0 (length ts))))) = length ts).
    { unfold mrow, D_offdiag. rewrite (nth_map' _ _ _ 0%nat) by now rewrite seq_length.
      now rewrite map_length, seq_length. }
    rewrite Lr. apply rsum_ext. intros k Hk.
    change (vnth (mrow i ?A) k) with (mget A i k). now apply mget_D_offdiag.
  - rewrite mget_D_offdiag by auto. destruct (Nat.eqb_spec j i); [contradiction|reflexivity].
Qed.

Lemma Dmat_row_sum ts i : NoDup ts -> (i < length ts)%nat -> vsum (mrow i (Dmat ts)) = 0.
Proof.
  intros N Hi. rewrite vsum_rsum, (shaped_row _ _ _ i (Dmat_shaped ts) Hi).
  rewrite <- (lagr_deriv_sum ts (vnth ts i) N ltac:(lia)). apply rsum_ext. intros j Hj.
  change (mget (Dmat ts) i j = peval (pderiv (lagr ts j)) (vnth ts i)). now apply mget_Dmat.
Qed.

Lemma Dmat_exact ts ys c i : NoDup ts -> (i < length ts)%nat -> interpolates ts ys c ->
  rsum (length ts) (fun j => mget (Dmat ts) i j * vnth ys j) = peval (pderiv c) (vnth ts i).
Proof.
  intros N Hi I. rewrite (interp_deriv_lagr ts ys c N I). apply rsum_ext. intros j Hj.
  rewrite mget_Dmat by auto. ring.
Qed.

(** D applied to a matrix, column by column. *)
Lemma Dmat_mmul ts X m j c i : NoDup ts -> (0 < length ts)%nat -> shaped (length ts) m X ->
  (j < m)%nat -> (i < length ts)%nat -> interpolates ts (mcol j X) c ->
  mget (mmul (Dmat ts) X) i j = peval (pderiv c) (vnth ts i).
Proof.
  intros N L S Hj Hi I.
  rewrite (mget_mmul (length ts) (length ts) m) by (auto using Dmat_shaped).
  rewrite <- (Dmat_exact ts _ c i N Hi I). apply rsum_ext. intros k Hk.
  rewrite vnth_mcol; [reflexivity|]. now rewrite (shaped_length _ _ _ S).
Qed.

Lemma mpow_assoc n m D X k : shaped n n D -> shaped n m X -> (0 < n)%nat ->
  mmul (mpow D (S k)) X = mmul D (mmul (mpow D k) X).
Proof.
  intros SD SX L.
  assert (SP := mpow_shaped n D k SD L).
  apply (mat_ext n m).
  - apply (mmul_shaped n n m); auto. change (shaped n n (mpow D (S k))). now apply mpow_shaped.
  - apply (mmul_shaped n n m); auto. apply (mmul_shaped n n m); auto.
  - intros i j Hi Hj.
    rewrite (mget_mmul n n m) by (auto; change (shaped n n (mpow D (S k))); now apply mpow_shaped).
    rewrite (mget_mmul n n m) by (auto; apply (mmul_shaped n n m); auto).
    rewrite (rsum_ext n _ (fun l => rsum n (fun p => mget D i p * mget (mpow D k) p l * mget X l j))).
    2:{ intros l Hl. cbn [mpow]. rewrite (mget_mmul n n n) by auto. now rewrite <- rsum_scal_r. }
    rewrite rsum_swap. apply rsum_ext. intros p Hp.
    rewrite (mget_mmul n n m) by auto. rewrite <- rsum_scal. apply rsum_ext. intros l Hl. ring.
Qed.
Lemma mmul_eye n m X : shaped n m X -> (0 < n)%nat -> mmul (eye n) X = X.
Proof.
  intros S L. apply (mat_ext n m); auto.
  - apply (mmul_shaped n n m); auto using eye_shaped.
  - intros i j Hi Hj. rewrite (mget_mmul n n m) by auto using eye_shaped.
    rewrite (rsum_ext n _ (fun l => if (l =? i)%nat then mget X l j else 0)).
    + now rewrite rsum_delta.
    + intros l Hl. rewrite mget_eye by auto. rewrite Nat.eqb_sym. destruct (l =? i)%nat; ring.
Qed.

Lemma Dmat_pow ts X m j c k i : NoDup ts -> (0 < length ts)%nat -> shaped (length ts) m X ->
  (j < m)%nat -> (i < length ts)%nat -> interpolates ts (mcol j X) c ->
  mget (mmul (mpow (Dmat ts) k) X) i j = peval (pderiv_n k c) (vnth ts i).
Proof.
  intros N L S Hj Hi I. revert i Hi. induction k as [|k IH]; intros i Hi.
  - cbn [mpow pderiv_n]. rewrite (shaped_length _ _ _ (Dmat_shaped ts)).
    rewrite (mmul_eye _ m) by auto. destruct I as [_ I]. rewrite I by exact Hi.
    symmetry. apply vnth_mcol. now rewrite (shaped_length _ _ _ S).
  - rewrite (mpow_assoc (length ts) m) by auto using Dmat_shaped.
    rewrite pderiv_n_S.
    assert (SY : shaped (length ts) m (mmul (mpow (Dmat ts) k) X)).
    { apply (mmul_shaped (length ts) (length ts) m); auto. apply mpow_shaped; auto using Dmat_shaped. }
    apply (Dmat_mmul ts _ m); auto.
    split.
    + rewrite pderiv_n_length. destruct I as [I _]. lia.
    + intros l Hl. rewrite vnth_mcol by now rewrite (shaped_length _ _ _ SY). symmetry. now apply IH.
Qed.

Section Scheme.
Variable rr : list R -> list R.

Lemma v_coef_ok N s nd order : node_points rr N s = Ok nd -> (order <= 2)%nat ->
  mapm (fun ii => v_coef rr N ii s order) (seq 0 N) = Ok (map (v_sum nd) (seq 0 N)).
Proof.
  intros E O. rewrite <- mapm_Ok. apply mapm_ext. intros i _. unfold v_coef.
  destruct (Nat.ltb_spec 2 order); [lia|]. now rewrite E.
Qed.
Lemma v_coef_coll_ok N s c order : coll_points rr N s order = Ok c ->
  mapm (fun ii => v_coef_coll rr N ii s order) (seq 0 N) = Ok (map (v_sum c) (seq 0 N)).
Proof.
  intros E. rewrite <- mapm_Ok. apply mapm_ext. intros i _. unfold v_coef_coll. now rewrite E.
Qed.

Lemma matrix_D_bary_ok N s nd : node_points rr N s = Ok nd -> length nd = N ->
  matrix_D_bary rr N s = Ok (Dmat nd).
Proof.
  intros E L. unfold matrix_D_bary. rewrite E. cbn [rbind].
  rewrite (v_coef_ok N s nd 2 E) by lia. cbn [rbind]. unfold Dmat. now rewrite L.
Qed.

(** ** Extreme points (C25) *)
(** The barycentric form at a point outside the set. *)
Lemma run_bary_ok ts p coefs c : NoDup ts -> (0 < length ts)%nat -> ~ In p ts ->
  length coefs = length ts -> interpolates ts coefs c ->
  run_extreme (Coef_bary (map (fun i => vnth (map (v_sum ts) (seq 0 (length ts))) i / (p - vnth ts i)) (seq 0 (length ts)))
                (rsum (length ts) (fun i => vnth (map (v_sum ts) (seq 0 (length ts))) i / (p - vnth ts i)))) coefs
  = Ok (peval c p).
Proof.
  intros N L K Lc I. cbn [run_extreme]. rewrite map_length, seq_length.
  destruct (Nat.ltb_spec (length coefs) (length ts)); [lia|]. f_equal.
  rewrite (barycentric ts coefs c (v_sum ts) (v_factor ts) p N I L (v_factor_neq0 ts N L)
       (fun i Hi => v_sum_bweight ts i N Hi) K).
  f_equal; apply rsum_ext; intros i Hi.
  - rewrite !vnth_map_seq by exact Hi. simpl. unfold Rdiv. ring.
  - rewrite !vnth_map_seq by exact Hi. reflexivity.
Qed.
End Scheme.
