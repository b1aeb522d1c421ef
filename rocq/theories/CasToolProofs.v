From Coq Require Import String.
From Verif Require Import Prelude PreludeFacts Mat MatFacts PwModel SymModel FuncDynModel FuncDynSpec CasModel CasSpec CasProofs.
Open Scope R_scope.
Open Scope list_scope.

(** ** Restrictions *)
Lemma restriction_accepted sch F n_vars n_u n_p n_s :
  (exists r, restriction2casadi sch F n_vars n_u n_p n_s = Ok r) <-> match sch with Sch7 _ => n_s = 0%nat | Sch8 _ => n_s <> 0%nat end.
Proof. unfold restriction2casadi. destruct sch, (Nat.eqb_spec n_s 0); cbn [negb]; split; intros H; eauto; try (destruct H; discriminate); congruence. Qed.
Lemma restriction_errors sch F n_vars n_u n_p n_s e : restriction2casadi sch F n_vars n_u n_p n_s = Err e ->
  e = match sch with Sch7 _ => ValueError | Sch8 _ => TypeError end.
Proof. unfold restriction2casadi. destruct sch, (Nat.eqb_spec n_s 0); cbn [negb]; intros H; congruence. Qed.
Lemma restriction7 f F n_vars n_u n_p r : restriction2casadi (Sch7 f) F n_vars n_u n_p 0 = Ok r -> forall args,
  (map (@length R) args <> [2 * n_vars; 2 * n_vars; n_u; n_u; 1; n_p]%nat -> r args = Err RuntimeError) /\
  (forall x x_n u u_n dt p, args = [x; x_n; u; u_n; [dt]; p] -> map (@length R) args = [2 * n_vars; 2 * n_vars; n_u; n_u; 1; n_p]%nat ->
   r args = Ok (f F x x_n u u_n dt p)).
Proof.
  cbn [restriction2casadi Nat.eqb negb]. intros H args; injection H as <-. unfold sized. split.
  - intros N. destruct (list_eq_dec _ _ _) as [e|]; [exfalso; apply N; exact e|reflexivity].
  - intros x x_n u u_n dt p -> E. destruct (list_eq_dec _ _ _) as [|n]; [reflexivity|exfalso; apply n; exact E].
Qed.
Lemma restriction8 f F n_vars n_u n_p n_s r : restriction2casadi (Sch8 f) F n_vars n_u n_p n_s = Ok r -> forall args,
  (map (@length R) args <> [2 * n_vars; 2 * n_vars; n_u; n_u; 1; n_p; n_s]%nat -> r args = Err RuntimeError) /\
  (forall x x_n u u_n dt p s, args = [x; x_n; u; u_n; [dt]; p; s] -> map (@length R) args = [2 * n_vars; 2 * n_vars; n_u; n_u; 1; n_p; n_s]%nat ->
   r args = Ok (f F x x_n u u_n dt p s)).
Proof.
  cbn [restriction2casadi]. destruct (n_s =? 0)%nat; [discriminate|]. intros H args; injection H as <-. unfold sized. split.
  - intros N. destruct (list_eq_dec _ _ _) as [e|]; [exfalso; apply N; exact e|reflexivity].
  - intros x x_n u u_n dt p s -> E. destruct (list_eq_dec _ _ _) as [|n]; [reflexivity|exfalso; apply n; exact E].
Qed.
Lemma restriction_accel f n_vars n_s order args :
  (map (@length R) args <> [order * n_vars; order * n_vars; n_vars; n_vars; 1; n_s]%nat -> accelrestriction2casadi f n_vars n_s order args = Err RuntimeError) /\
  (forall x x_n a a_n dt s, args = [x; x_n; a; a_n; [dt]; s] -> map (@length R) args = [order * n_vars; order * n_vars; n_vars; n_vars; 1; n_s]%nat ->
   accelrestriction2casadi f n_vars n_s order args = Ok (f x x_n a a_n dt s)).
Proof.
  unfold accelrestriction2casadi, sized. split.
  - intros N. destruct (list_eq_dec _ _ _) as [e|]; [exfalso; apply N; exact e|reflexivity].
  - intros x x_n a a_n dt s -> E. destruct (list_eq_dec _ _ _) as [|n]; [reflexivity|exfalso; apply n; exact E].
Qed.
(** The trapezoidal rule over a casadi function of the dynamics. *)
Definition f_of (f : cas_function) : dynamics := fun x u p => match cas_call f [x; u; p] with Ok y => y | Err _ => [] end.
Theorem restriction_trapz f n n_u n_p r : cf_sizes f = [2 * n; n_u; n_p]%nat ->
  restriction2casadi (Sch7 (fun F x x_n u u_n dt p => trapz_restr F x x_n u u_n dt p)) (f_of f) n n_u n_p 0 = Ok r ->
  forall x x_n u u_n dt p y y_n, length x_n = (2 * n)%nat -> length y = (2 * n)%nat -> length y_n = (2 * n)%nat ->
  cas_call f [x; u; p] = Ok y -> cas_call f [x_n; u_n; p] = Ok y_n ->
  (holds (r [x; x_n; u; u_n; [dt]; p]) <-> forall i, (i < 2 * n)%nat -> vnth x_n i = vnth x i + dt / 2 * (vnth y i + vnth y_n i)).
Proof.
  intros SZ Hr x x_n u u_n dt p y y_n Ln Ly Lyn Ey Eyn.
  assert (S1 : map (@length R) [x; u; p] = [2 * n; n_u; n_p]%nat).
  { destruct (list_eq_dec Nat.eq_dec (map (@length R) [x; u; p]) (cf_sizes f)) as [E|E]; [congruence|]. revert Ey. unfold cas_call. destruct (list_eq_dec _ _ _); [congruence|discriminate]. }
  assert (S2 : map (@length R) [x_n; u_n; p] = [2 * n; n_u; n_p]%nat).
  { revert Eyn. unfold cas_call. destruct (list_eq_dec _ _ _); [congruence|discriminate]. }
  cbn [map] in S1, S2. injection S1 as Lx Lu Lp. injection S2 as _ Lun _.
  destruct (restriction7 _ _ _ _ _ _ Hr [x; x_n; u; u_n; [dt]; p]) as [_ V].
  rewrite (V _ _ _ _ _ _ eq_refl) by (cbn [map length]; rewrite Lx, Ln, Lu, Lun, Lp; reflexivity).
  assert (Fy : f_of f x u p = y) by (unfold f_of; rewrite Ey; reflexivity). assert (Fyn : f_of f x_n u_n p = y_n) by (unfold f_of; rewrite Eyn; reflexivity).
  unfold trapz_restr. rewrite Fy, Fyn.
  assert (Z : forall v, holds (Ok v) <-> all_zero v) by (intros v; split; [intros (w & E & W); congruence|intros W; exists v; auto]).
  rewrite Z. change (length x = 2 * n)%nat in Lx. clear -Ln Ly Lyn Lx. revert x_n y y_n Ln Ly Lyn Lx. generalize (2 * n)%nat. intros m. revert m.
  induction x as [|x0 x IH]; intros [|m] [|z zs] [|y0 y] [|w ws] Ln Ly Lyn Lx; cbn [length] in *; try discriminate.
  - cbn. split; [intros _ i Hi; lia|intros _; constructor].
  - injection Ln as Ln. injection Ly as Ly. injection Lyn as Lyn. injection Lx as Lx. specialize (IH m zs y ws Ln Ly Lyn Lx).
    change (all_zero ((z - (x0 + dt / 2 * (y0 + w))) :: (zs -v (x +v (dt / 2) *v (y +v ws)))) <-> forall i, (i < S m)%nat -> vnth (z :: zs) i = vnth (x0 :: x) i + dt / 2 * (vnth (y0 :: y) i + vnth (w :: ws) i)).
    split.
    + intros H i Hi. inversion H as [|? ? H0 H1]; subst. destruct i as [|i]; [cbn; lra|]. apply (proj1 IH H1 i). lia.
    + intros H. constructor; [specialize (H 0%nat ltac:(lia)); cbn in H; lra|]. apply IH. intros i Hi. apply (H (S i)). lia.
Qed.

(** ** Lists and matrices *)
Lemma list2casadi_column l : list2casadi l = (1%nat, map (fun x => [x]) l).
Proof.
  unfold list2casadi, transpose. f_equal. apply (nth_ext _ _ [] []); rewrite !map_length, seq_length; auto. intros i Hi.
  rewrite (nth_indep _ [] ((fun j => map (fun r => nth j r 0) [l]) 0%nat)) by (rewrite map_length, seq_length; auto). rewrite (map_nth (fun j => map (fun r => nth j r 0) [l])).
  rewrite seq_nth by auto. cbn. rewrite (nth_indep _ [] ((fun x : R => [x]) 0)) by (rewrite map_length; auto). rewrite (map_nth (fun x : R => [x])). reflexivity.
Qed.
Lemma column_of l : map (fun ii => map (fun r => nth ii r 0) [l]) (seq 0 (length l)) = map (fun x : R => [x]) l.
Proof.
  pose proof (list2casadi_column l) as H. unfold list2casadi, transpose in H. injection H as H. exact H.
Qed.
(** Of a row or a column of numbers: the numbers. *)
Lemma unpack_row l : length l <> 1%nat -> cas_unpack (length l) [l] = map (fun x => [x]) l.
Proof. intros N. unfold cas_unpack. rewrite (proj2 (Nat.eqb_neq _ _) N). apply column_of. Qed.
Lemma unpack_column l : cas_unpack 1 (map (fun x => [x]) l) = map (fun x => [x]) l.
Proof.
  unfold cas_unpack. cbn [Nat.eqb]. unfold transpose. cbn [seq map]. rewrite map_map. cbn [nth]. rewrite map_id, map_length. apply column_of.
Qed.
Theorem list_roundtrip l : concat (cas_unpack (fst (list2casadi l)) (snd (list2casadi l))) = l.
Proof. rewrite list2casadi_column. cbn [fst snd]. rewrite unpack_column. induction l; cbn; [auto|f_equal; auto]. Qed.
(** Of N samples of c numbers: c columns, but for c = 1. *)
Theorem unpack_samples N c m : shaped N c m -> c <> 1%nat -> length (cas_unpack c m) = c /\
  forall j, (j < c)%nat -> nth j (cas_unpack c m) [] = map (fun i => mget m i j) (seq 0 N).
Proof.
  intros [LN SH] C. unfold cas_unpack. rewrite (proj2 (Nat.eqb_neq _ _) C). rewrite map_length, seq_length. split; auto. intros j Hj.
  rewrite (nth_indep _ [] ((fun ii => map (fun r => nth ii r 0) m) 0%nat)) by (rewrite map_length, seq_length; auto). rewrite (map_nth (fun ii => map (fun r => nth ii r 0) m)), seq_nth by auto. cbn [Nat.add].
  subst N. apply (nth_ext _ _ 0 0); rewrite !map_length, ?seq_length; auto. intros i Hi.
  rewrite (nth_indep (map (fun i => mget m i j) (seq 0 (length m))) 0 ((fun i => mget m i j) 0%nat)) by (rewrite map_length, seq_length; auto). rewrite (map_nth (fun i => mget m i j)), seq_nth by auto. cbn [Nat.add].
  rewrite (nth_indep _ 0 ((fun r : vec => nth j r 0) [])) by (rewrite map_length; auto). rewrite (map_nth (fun r : vec => nth j r 0)). reflexivity.
Qed.
(** N samples of one number are taken for one sample of N numbers. *)
Theorem unpack_single (l : vec) : length (cas_unpack 1 (map (fun x => [x]) l)) = length l.
Proof. rewrite unpack_column, map_length. reflexivity. Qed.
Lemma ex_unpack : cas_unpack 2 [[1; 2]; [3; 4]; [5; 6]] = [[1; 3; 5]; [2; 4; 6]] /\ cas_unpack 1 [[1]; [3]; [5]] = [[1]; [3]; [5]] /\ list2casadi [1; 3] = (1%nat, [[1]; [3]]).
Proof. repeat split. Qed.
