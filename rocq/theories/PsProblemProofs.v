(** Extreme points, the constraints of the pseudospectral problem and the
    interpolation of its solutions (C25, C26). *)
From Coq Require Import String.
From Coquelicot Require Import Coquelicot.
From Verif Require Import Prelude PreludeFacts Poly PolyFacts PolyInterp Mat MatFacts
  PwInterpModel PsModel JacobiFacts PsSpec PsPointsProofs PsBaryProofs PsNodesProofs.
Open Scope R_scope.
Open Scope list_scope.

(** ** Small facts *)
Lemma with_ends_incr l r n c : inner_set n c -> increasing (with_ends l r c).
Proof. intros S. apply (with_ends_ok l r) in S. apply S. Qed.
Lemma with_ends_NoDup l r n c : inner_set n c -> NoDup (with_ends l r c).
Proof. intros S. apply increasing_NoDup. now apply (with_ends_incr l r n). Qed.
Lemma with_ends_length l r c : length (with_ends l r c) = (b2n l + length c + b2n r)%nat.
Proof. unfold with_ends, b2n. rewrite !app_length. destruct l, r; simpl; lia. Qed.
Lemma with_ends_no_start r n c : inner_set n c -> ~ In (-1) (with_ends false r c).
Proof. intros S I. apply (with_ends_ok false r) in S. destruct S as (_ & _ & _ & S & _). apply S in I. discriminate. Qed.
Lemma with_ends_no_end l n c : inner_set n c -> ~ In 1 (with_ends l false c).
Proof. intros S I. apply (with_ends_ok l false) in S. destruct S as (_ & _ & _ & _ & S). apply S in I. discriminate. Qed.
Lemma with_ends_first r c : vnth (with_ends true r c) 0 = -1.
Proof. reflexivity. Qed.
Lemma with_ends_last l c : vnth (with_ends l true c) (length (with_ends l true c) - 1) = 1.
Proof.
  rewrite with_ends_length. unfold with_ends, b2n, vnth. destruct l; cbn [app].
  - replace (1 + length c + 1 - 1)%nat with (S (length c)) by lia. simpl. rewrite app_nth2, Nat.sub_diag by lia. reflexivity.
  - replace (0 + length c + 1 - 1)%nat with (length c) by lia. rewrite app_nth2, Nat.sub_diag by lia. reflexivity.
Qed.
(** Shifting a point of the small set into the full one. *)
Lemma with_ends_shift l r c i : (i < b2n l + length c + b2n r)%nat ->
  vnth (with_ends l r c) i = vnth (with_ends true true c) ((1 - b2n l) + i).
Proof.
  unfold with_ends, vnth, b2n. intros H. destruct l; cbn [app Nat.sub Nat.add].
  - destruct i as [|i]; [reflexivity|]. simpl in *. destruct r; [reflexivity|].
    rewrite app_nil_r, app_nth1 by lia. reflexivity.
  - destruct r; [reflexivity|]. simpl. rewrite app_nil_r, app_nth1 by lia. reflexivity.
Qed.

Lemma last_item_vnth l : (0 < length l)%nat -> last_item l = Ok (vnth l (length l - 1)).
Proof.
  intros H. unfold last_item.
  destruct (rev l) eqn:E.
  - apply (f_equal (@length R)) in E. rewrite rev_length in E. simpl in E. lia.
  - f_equal. assert (K : vnth (rev l) 0 = r) by now rewrite E.
    rewrite vnth_rev in K by exact H. rewrite Nat.sub_0_r in K. now rewrite K.
Qed.
Lemma first_item_vnth l : (0 < length l)%nat -> first_item l = Ok (vnth l 0).
Proof. destruct l; simpl; [lia|reflexivity]. Qed.

(** ** Extreme functions (C25) *)
(** [f] maps node values to the value of their interpolant at [p]. *)
Definition extreme_at (ts : vec) (p : R) (f : extreme_f) : Prop :=
  forall coefs c, length coefs = length ts -> interpolates ts coefs c ->
    run_extreme f coefs = Ok (peval c p).

Lemma extreme_first r c : extreme_at (with_ends true r c) (-1) Coef_first.
Proof.
  intros coefs q L I. cbn [run_extreme].
  assert (P : (0 < length (with_ends true r c))%nat) by (rewrite with_ends_length; simpl; lia).
  rewrite first_item_vnth by lia. f_equal. destruct I as [_ I]. rewrite <- I by exact P. reflexivity.
Qed.
Lemma extreme_last l c : extreme_at (with_ends l true c) 1 Coef_last.
Proof.
  intros coefs q L I. cbn [run_extreme].
  assert (P : (0 < length (with_ends l true c))%nat) by (rewrite with_ends_length; simpl; lia).
  rewrite last_item_vnth by lia. f_equal. destruct I as [_ I]. rewrite L, <- I by lia.
  f_equal. apply with_ends_last.
Qed.

Section Scheme.
Variable rr : list R -> list R.
Hypothesis OK : real_roots_ok rr.

Lemma bary_extreme_u s N p order ts : coll_points rr N s order = Ok ts -> length ts = N -> (0 < N)%nat ->
  NoDup ts -> ~ In p ts ->
  exists f, bary_extreme rr s N "u" p order = Ok f /\ extreme_at ts p f.
Proof.
  intros E L P ND K. unfold bary_extreme. change ("u" =? "u")%string with true. cbv beta iota.
  rewrite (v_coef_coll_ok rr N s ts order E). cbn [rbind]. rewrite E. cbn [rbind].
  eexists. split; [reflexivity|]. intros coefs c Lc I. subst N.
  now apply run_bary_ok.
Qed.
Lemma bary_extreme_x s N p order ts : node_points rr N s = Ok ts -> (order <= 2)%nat -> length ts = N -> (0 < N)%nat ->
  NoDup ts -> ~ In p ts ->
  exists f, bary_extreme rr s N "x" p order = Ok f /\ extreme_at ts p f.
Proof.
  intros E O L P ND K. unfold bary_extreme. change ("x" =? "u")%string with false. cbv beta iota.
  rewrite (v_coef_ok rr N s ts order E O). cbn [rbind]. rewrite E. cbn [rbind].
  eexists. split; [reflexivity|]. intros coefs c Lc I. subst N.
  now apply run_bary_ok.
Qed.

Lemma mem_starts s : In s all_schemes -> mem s (lobato_like ++ radau_like ++ ["D2"%string]) = starts s.
Proof. intros H. scheme_cases H; rewrite <- ?H; reflexivity. Qed.
Lemma mem_ends s : In s all_schemes -> mem s (lobato_like ++ radau_inv ++ ["D2"%string]) = ends s.
Proof. intros H. scheme_cases H; rewrite <- ?H; reflexivity. Qed.

Lemma enough_length s N : In s all_schemes -> enough_points s N ->
  (b2n (starts s) + (N - b2n (starts s) - b2n (ends s)) + b2n (ends s))%nat = N.
Proof. apply enough_starts. Qed.

Lemma extreme_u_start s N order : In s all_schemes -> enough_points s N ->
  exists ts f, coll_points rr N s order = Ok ts /\
    get_bary_extreme_f rr s N "u" "start" order = Ok f /\ extreme_at ts (-1) f.
Proof.
  intros H E. destruct (coll_points_inner rr OK s N order H E) as (c & Ec & S).
  exists (with_ends (starts s) (ends s) c).
  assert (L : length (with_ends (starts s) (ends s) c) = N).
  { rewrite with_ends_length. destruct S as [-> _]. now apply enough_length. }
  unfold get_bary_extreme_f. cbn [String.eqb Ascii.eqb Bool.eqb]. rewrite (mem_starts s H).
  destruct (starts s) eqn:Es.
  - exists Coef_first. repeat split; [exact Ec|]. apply extreme_first.
  - destruct (bary_extreme_u s N (-1) order _ Ec L) as (f & F & K).
    + destruct E; lia.
    + now apply (with_ends_NoDup _ _ _ _ S).
    + now apply (with_ends_no_start _ _ _ S).
    + exists f. repeat split; assumption.
Qed.
Lemma extreme_u_end s N order : In s all_schemes -> enough_points s N ->
  exists ts f, coll_points rr N s order = Ok ts /\
    get_bary_extreme_f rr s N "u" "end" order = Ok f /\ extreme_at ts 1 f.
Proof.
  intros H E. destruct (coll_points_inner rr OK s N order H E) as (c & Ec & S).
  exists (with_ends (starts s) (ends s) c).
  assert (L : length (with_ends (starts s) (ends s) c) = N).
  { rewrite with_ends_length. destruct S as [-> _]. now apply enough_length. }
  unfold get_bary_extreme_f. cbn [String.eqb Ascii.eqb Bool.eqb]. rewrite (mem_ends s H).
  destruct (ends s) eqn:Es.
  - exists Coef_last. repeat split; [exact Ec|]. apply extreme_last.
  - destruct (bary_extreme_u s N 1 order _ Ec L) as (f & F & K).
    + destruct E; lia.
    + now apply (with_ends_NoDup _ _ _ _ S).
    + now apply (with_ends_no_end _ _ _ S).
    + exists f. repeat split; assumption.
Qed.

Lemma nodes_of_pos s N : In s all_schemes -> enough_points s N -> (0 < nodes_of s N)%nat.
Proof.
  intros H E. unfold nodes_of. assert (nstarts s = true \/ nends s = true).
  { scheme_cases H; rewrite <- ?H; cbv; auto. }
  destruct H0 as [->| ->]; simpl; lia.
Qed.

Lemma extreme_x_start s N order : In s all_schemes -> enough_points s N ->
  (In s gauss_inv_schemes -> (order <= 2)%nat) ->
  exists ts f, node_points rr (nodes_of s N) s = Ok ts /\
    get_bary_extreme_f rr s (nodes_of s N) "x" "start" order = Ok f /\ extreme_at ts (-1) f.
Proof.
  intros H E O. destruct (nodes_shape rr OK s N H E) as (c & S & Ec & En & Ep).
  exists (with_ends (nstarts s) (nends s) c).
  assert (L : length (with_ends (nstarts s) (nends s) c) = nodes_of s N).
  { rewrite with_ends_length. unfold nodes_of. destruct S as [-> _]. reflexivity. }
  unfold get_bary_extreme_f. cbn [String.eqb Ascii.eqb Bool.eqb].
  change (negb (mem s gauss_inv)) with (nstarts s).
  destruct (nstarts s) eqn:Es.
  - exists Coef_first. repeat split; [exact Ep|]. apply extreme_first.
  - destruct (bary_extreme_x s (nodes_of s N) (-1) order _ Ep) as (f & F & K).
    + apply O. unfold nstarts in Es. apply mem_In. now destruct (mem s gauss_inv_schemes).
    + exact L.
    + now apply nodes_of_pos.
    + now apply (with_ends_NoDup _ _ _ _ S).
    + now apply (with_ends_no_start _ _ _ S).
    + exists f. repeat split; assumption.
Qed.
Lemma extreme_x_end s N order : In s all_schemes -> enough_points s N ->
  (In s gauss_schemes -> (order <= 2)%nat) ->
  exists ts f, node_points rr (nodes_of s N) s = Ok ts /\
    get_bary_extreme_f rr s (nodes_of s N) "x" "end" order = Ok f /\ extreme_at ts 1 f.
Proof.
  intros H E O. destruct (nodes_shape rr OK s N H E) as (c & S & Ec & En & Ep).
  exists (with_ends (nstarts s) (nends s) c).
  assert (L : length (with_ends (nstarts s) (nends s) c) = nodes_of s N).
  { rewrite with_ends_length. unfold nodes_of. destruct S as [-> _]. reflexivity. }
  unfold get_bary_extreme_f. cbn [String.eqb Ascii.eqb Bool.eqb].
  change (negb (mem s gauss_like)) with (nends s).
  destruct (nends s) eqn:Es.
  - exists Coef_last. repeat split; [exact Ep|]. apply extreme_last.
  - destruct (bary_extreme_x s (nodes_of s N) 1 order _ Ep) as (f & F & K).
    + apply O. unfold nends in Es. apply mem_In. now destruct (mem s gauss_schemes).
    + exact L.
    + now apply nodes_of_pos.
    + now apply (with_ends_NoDup _ _ _ _ S).
    + now apply (with_ends_no_end _ _ _ S).
    + exists f. repeat split; assumption.
Qed.
Lemma mapm_err {A B} (f : A -> Res B) e a l : f a = Err e -> mapm f (a :: l) = Err e.
Proof. intros H. simpl. now rewrite H. Qed.
Lemma extreme_x_order3 s N order : (2 < order)%nat -> (0 < N)%nat ->
  (In s gauss_inv_schemes -> get_bary_extreme_f rr s N "x" "start" order = Err ValueError) /\
  (In s gauss_schemes -> get_bary_extreme_f rr s N "x" "end" order = Err ValueError).
Proof.
  intros O P. destruct N as [|N]; [lia|].
  assert (B : forall p, bary_extreme rr s (S N) "x" p order = Err ValueError).
  { intros p. unfold bary_extreme. change ("x" =? "u")%string with false. cbv beta iota.
    cbn [seq]. rewrite (mapm_err _ ValueError); [reflexivity|]. unfold v_coef.
    now destruct (Nat.ltb_spec 2 order); [|lia]. }
  split; intros H; unfold get_bary_extreme_f; cbn [String.eqb Ascii.eqb Bool.eqb].
  - change (mem s gauss_inv) with (mem s gauss_inv_schemes). rewrite (proj2 (mem_In _ _) H). apply B.
  - change (mem s gauss_like) with (mem s gauss_schemes). rewrite (proj2 (mem_In _ _) H). apply B.
Qed.
End Scheme.

(** ** Derivatives at the ends *)
Lemma diff_end_ok rr N s nd coefs c : node_points rr N s = Ok nd -> NoDup nd -> length coefs = length nd ->
  interpolates nd coefs c -> diff_end_p_fun rr N s coefs = Ok (Derive (peval c) 1).
Proof.
  intros E ND L I. unfold diff_end_p_fun. rewrite E. cbn [rbind]. f_equal.
  rewrite Derive_peval. apply peval_pderiv_ext.
  apply (interpolates_unique nd coefs); auto. now apply lagrangePolynomial_interp.
Qed.
Lemma diff_start_at_0 rr N s nd coefs c : node_points rr N s = Ok nd -> NoDup nd -> length coefs = length nd ->
  interpolates nd coefs c -> diff_start_p_fun rr N s coefs = Ok (Derive (peval c) 0).
Proof.
  intros E ND L I. unfold diff_start_p_fun. rewrite E. cbn [rbind]. f_equal.
  rewrite Derive_peval. apply peval_pderiv_ext.
  apply (interpolates_unique nd coefs); auto. now apply lagrangePolynomial_interp.
Qed.

(** ** From the unit interval to time *)
Lemma tau_to_t_affine p t0 tf : tau_to_t p t0 tf = (t0 + tf) / 2 + (tf - t0) / 2 * p.
Proof. unfold tau_to_t. field. Qed.
(** The polynomial in tau of a polynomial in t. *)
Definition in_tau (t0 tf : R) (c : list R) : list R := pcomp_affine c ((t0 + tf) / 2) ((tf - t0) / 2).
Lemma peval_in_tau t0 tf c p : peval (in_tau t0 tf c) p = peval c (tau_to_t p t0 tf).
Proof. unfold in_tau. now rewrite peval_pcomp_affine, tau_to_t_affine. Qed.
Lemma pderiv_in_tau t0 tf c p :
  peval (pderiv (in_tau t0 tf c)) p = (tf - t0) / 2 * peval (pderiv c) (tau_to_t p t0 tf).
Proof. unfold in_tau. now rewrite peval_pderiv_pcomp_affine, tau_to_t_affine. Qed.
Lemma interpolates_in_tau t0 tf taus ys c : interpolates (tau_to_t_points taus t0 tf) ys c ->
  interpolates taus ys (in_tau t0 tf c).
Proof.
  intros [L I]. unfold tau_to_t_points in *. rewrite map_length in *. split.
  - unfold in_tau. now rewrite pcomp_affine_length.
  - intros i Hi. rewrite peval_in_tau, <- I by exact Hi. unfold vnth at 2.
    now rewrite (nth_map' _ _ _ 0) by exact Hi.
Qed.
Lemma vnth_times taus t0 tf i : (i < length taus)%nat ->
  vnth (tau_to_t_points taus t0 tf) i = tau_to_t (vnth taus i) t0 tf.
Proof. intros H. unfold tau_to_t_points, vnth. now rewrite (nth_map' _ _ _ 0). Qed.

Lemma state_at_length P t : length (state_at P t) = length P.
Proof. apply map_length. Qed.
Lemma rate_at_length P t : length (rate_at P t) = length P.
Proof. apply map_length. Qed.
Lemma vnth_state_at P t j : (j < length P)%nat -> vnth (state_at P t) j = peval (nth j P []) t.
Proof. intros H. unfold state_at, vnth. now rewrite (nth_map' _ _ _ []). Qed.
Lemma vnth_rate_at P t j : (j < length P)%nat -> vnth (rate_at P t) j = peval (pderiv (nth j P [])) t.
Proof. intros H. unfold rate_at, vnth. rewrite (nth_map' _ _ _ []) by exact H. apply Derive_peval. Qed.

Lemma traj_row ts X n m P i : shaped n m X -> length ts = n -> length P = m -> traj_through ts X P ->
  (i < n)%nat -> mrow i X = state_at P (vnth ts i).
Proof.
  intros S L LP T Hi. apply vec_ext.
  - now rewrite state_at_length, (shaped_row n m).
  - intros j Hj. rewrite (shaped_row n m) in Hj by auto. rewrite vnth_state_at by lia.
    destruct (T j ltac:(lia)) as [_ I]. rewrite I by lia.
    rewrite vnth_mcol by (rewrite (shaped_length _ _ _ S); exact Hi). reflexivity.
Qed.

Lemma rows_ext n m A B : shaped n m A -> shaped n m B -> (A = B <-> forall i, (i < n)%nat -> mrow i A = mrow i B).
Proof.
  intros SA SB. split; [now intros ->|]. intros H. apply (mat_ext n m); auto.
  intros i j Hi Hj. unfold mget. now rewrite H.
Qed.

Section Problem.
Variables (taus : vec) (t0 tf : R).
Hypothesis ND : NoDup taus.
Hypothesis NE : (0 < length taus)%nat.
Hypothesis H0 : t0 <> tf.

Lemma D_rows X m P i : shaped (length taus) m X -> length P = m ->
  traj_through (tau_to_t_points taus t0 tf) X P -> (i < length taus)%nat ->
  mrow i (mscale (2 / (tf - t0)) (mmul (Dmat taus) X)) = rate_at P (tau_to_t (vnth taus i) t0 tf).
Proof.
  intros S L T Hi.
  assert (SM : shaped (length taus) m (mscale (2 / (tf - t0)) (mmul (Dmat taus) X))).
  { apply mscale_shaped, (mmul_shaped _ (length taus)); auto using Dmat_shaped. }
  apply vec_ext.
  - now rewrite rate_at_length, (shaped_row _ _ _ _ SM).
  - intros j Hj. rewrite (shaped_row _ _ _ _ SM) in Hj by exact Hi.
    rewrite vnth_rate_at by lia.
    change (mget (mscale (2 / (tf - t0)) (mmul (Dmat taus) X)) i j
      = peval (pderiv (nth j P [])) (tau_to_t (vnth taus i) t0 tf)).
    rewrite mget_mscale.
    rewrite (Dmat_mmul taus X m j (in_tau t0 tf (nth j P [])) i); auto.
    + rewrite pderiv_in_tau. field. lra.
    + apply interpolates_in_tau. apply T. lia.
Qed.

Lemma run_cols_ok X m P p f : shaped (length taus) m X -> length P = m ->
  traj_through (tau_to_t_points taus t0 tf) X P -> extreme_at taus p f ->
  run_extreme_cols f X = Ok (state_at P (tau_to_t p t0 tf)).
Proof.
  intros S L T F. unfold run_extreme_cols. rewrite (shaped_mwidth (length taus) m) by auto.
  rewrite (mapm_ext _ (fun j => Ok (peval (nth j P []) (tau_to_t p t0 tf)))).
  - rewrite mapm_Ok. f_equal. apply vec_ext.
    + now rewrite map_length, seq_length, state_at_length.
    + intros j Hj. rewrite map_length, seq_length in Hj. rewrite vnth_map_seq by exact Hj.
      now rewrite vnth_state_at by lia.
  - intros j I. apply in_seq in I. rewrite <- peval_in_tau. apply F.
    + now rewrite mcol_length, (shaped_length _ _ _ S).
    + apply interpolates_in_tau, T. lia.
Qed.
End Problem.
