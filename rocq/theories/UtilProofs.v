(** Proofs about the model of chords/util.py. *)
From Coq Require Import String.
From Coquelicot Require Import Coquelicot.
From Verif Require Import Prelude PreludeFacts Poly PolyFacts PolyInterp Mat MatFacts
  PwInterpModel PsModel JacobiFacts PsSpec PsPointsProofs PsBaryProofs UtilModel UtilSpec GaussFacts.
Open Scope R_scope.
Open Scope vec_scope.
Open Scope list_scope.

Lemma ceil_half_ge n : (n <= 2 * ceil_half n)%nat.
Proof. unfold ceil_half. pose proof (Nat.div_mod (n + 1) 2 ltac:(lia)). pose proof (Nat.mod_upper_bound (n + 1) 2 ltac:(lia)). lia. Qed.
Lemma ceil_half_pos n : (1 <= n)%nat -> (1 <= ceil_half n)%nat.
Proof. intros H. pose proof (ceil_half_ge n). lia. Qed.

Lemma RInt_affine c t0 t1 :
  RInt (peval c) t0 t1
  = (t1 - t0) * RInt (peval (pcomp_affine c (t0 + (t1 - t0) / 2) ((t1 - t0) / 2))) (-1) 1 / 2.
Proof.
  set (b := (t1 - t0) / 2). set (a := t0 + b).
  assert (E : b * RInt (peval (pcomp_affine c a b)) (-1) 1 = RInt (peval c) t0 t1).
  { rewrite <- RInt_pscale.
    rewrite (RInt_antideriv (pcomp_affine (pint c) a b)).
    - rewrite !peval_pcomp_affine, RInt_peval.
      replace (a + b * 1) with t1 by (unfold a, b; field).
      replace (a + b * -1) with t0 by (unfold a, b; field). reflexivity.
    - intros x. rewrite peval_pderiv_pcomp_affine, peval_pderiv_pint, peval_pscale, peval_pcomp_affine.
      reflexivity. }
  rewrite <- E. unfold b at 1. req. field.
Qed.

Section Proofs.
Variable rr : list R -> list R.
Variable lg : nat -> vec * vec.
Hypothesis HR : real_roots_ok rr.
Hypothesis HL : leggauss_ok lg.

Lemma gauss_points_length N t0 t1 : (1 <= N)%nat -> length (gauss_points lg N t0 t1) = N.
Proof. intros H. unfold gauss_points. rewrite map_length. apply (HL N H). Qed.

Lemma gauss_integral_exact f c N t0 t1 : (1 <= N)%nat -> (forall x, f x = peval c x) ->
  (length c <= 2 * N)%nat -> gauss_integral lg f N t0 t1 = RInt (peval c) t0 t1.
Proof.
  intros HN Hf Hc. rewrite RInt_affine. unfold gauss_integral, gauss_points.
  destruct (HL N HN) as (L & I & F & LW & Q).
  rewrite <- Q by (rewrite pcomp_affine_length; exact Hc).
  rewrite map_map. unfold vdot. f_equal. f_equal. f_equal. f_equal.
  apply map_ext. intros p. rewrite Hf, peval_pcomp_affine. f_equal. field.
Qed.

Lemma mcol_map (f : R -> vec) pts j : mcol j (map f pts) = map (fun p => vnth (f p) j) pts.
Proof. unfold mcol. rewrite map_map. reflexivity. Qed.

Lemma vnth_state_at cs t j : (j < length cs)%nat -> vnth (state_at cs t) j = peval (nth j cs []) t.
Proof.
  intros H. unfold vnth, state_at. rewrite (nth_indep _ 0 (peval [] t)) by (rewrite map_length; exact H).
  apply (map_nth (fun c => peval c t)).
Qed.

Lemma map_nth_seq {A B} (f : A -> B) (l : list A) d :
  map (fun j => f (nth j l d)) (seq 0 (length l)) = map f l.
Proof.
  apply (nth_ext _ _ (f d) (f d)); rewrite !map_length, seq_length; [reflexivity|].
  intros i Hi. rewrite (map_nth f).
  rewrite (nth_indep _ (f d) (f (nth 0 l d))) by (rewrite map_length, seq_length; exact Hi).
  rewrite (map_nth (fun j => f (nth j l d))), seq_nth by exact Hi. reflexivity.
Qed.

Lemma gauss_integral_2d_exact f cs N t0 t1 : (1 <= N)%nat -> poly_fun (2 * N) f cs ->
  gauss_integral_2d lg f N t0 t1 = map (fun c => RInt (peval c) t0 t1) cs.
Proof.
  intros HN [Hl Hf]. unfold gauss_integral_2d.
  assert (W : mwidth (map f (gauss_points lg N t0 t1)) = length cs).
  { pose proof (gauss_points_length N t0 t1 HN) as L. destruct (gauss_points lg N t0 t1); [simpl in L; lia|].
    unfold mwidth. simpl. rewrite Hf. unfold state_at. apply map_length. }
  rewrite W. rewrite <- (map_nth_seq (fun c => RInt (peval c) t0 t1) cs []).
  apply map_ext_in. intros j Hj. apply in_seq in Hj.
  rewrite <- (gauss_integral_exact (peval (nth j cs [])) (nth j cs []) N t0 t1 HN).
  - unfold gauss_integral. rewrite mcol_map. f_equal. f_equal. f_equal. f_equal.
    apply map_ext. intros p. rewrite Hf. apply vnth_state_at. lia.
  - reflexivity.
  - rewrite Forall_forall in Hl. apply Hl. apply nth_In. lia.
Qed.

Lemma gauss_rep_integral_exact f c t0 t1 n_pol n : (1 <= n)%nat -> (forall x, f x = peval c x) ->
  (length c <= n_pol + 1)%nat ->
  gauss_rep_integral lg f t0 t1 n_pol n = rep_RInt n (peval c) t0 t1.
Proof.
  intros Hn Hf Hc. unfold gauss_rep_integral.
  pose proof (ceil_half_ge (n_pol + n - 1 + 1)) as C1.
  pose proof (ceil_half_pos (n_pol + n - 1 + 1) ltac:(lia)) as C2.
  rewrite (gauss_integral_exact _ (pmul (ppow [t1; -1] (n - 1)) c)).
  - rewrite cauchy_formula, rep_RInt_pint. replace (S (n - 1)) with n by lia.
    field. apply INR_fact_neq_0.
  - exact C2.
  - intros x. rewrite peval_pmul, peval_ppow, Hf. f_equal. f_equal. simpl. ring.
  - pose proof (ppow_length_le [t1; -1] (n - 1) ltac:(discriminate)) as P. cbn [length] in P.
    destruct (pmul_length_le (ppow [t1; -1] (n - 1)) c) as [H|[H|H]].
    + lia.
    + destruct (ppow [t1; -1] (n - 1)) eqn:E; [|discriminate].
      simpl. lia.
    + destruct c; [|discriminate].
      assert (K : forall l : list R, (length (pmul l []) <= length l)%nat).
      { induction l; [simpl; lia|]. cbn [pmul]. rewrite padd_length. cbn [length pscale map]. lia. }
      specialize (K (ppow [t1; -1] (n - 1))). lia.
Qed.

(** ** Antiderivative polynomials *)
Lemma gauss_nodes_NoDup N t0 t1 : (1 <= N)%nat -> t0 <> t1 -> NoDup ([t0] ++ gauss_points lg N t0 t1).
Proof.
  intros HN Ht. destruct (HL N HN) as (L & I & F & _). pose proof (increasing_NoDup _ I) as ND.
  rewrite Forall_forall in F. simpl. constructor.
  - unfold gauss_points. rewrite in_map_iff. intros (p & E & Hp). specialize (F p Hp).
    assert (E' : (t1 - t0) * ((p + 1) / 2) = 0) by lra. apply Rmult_integral in E'. lra.
  - unfold gauss_points. apply FinFun.Injective_map_NoDup; [|exact ND].
    intros p q E. assert (E' : (t1 - t0) * (p - q) = 0) by lra.
    apply Rmult_integral in E'. lra.
Qed.

Lemma poly_integral_exact f c n_pol t0 t1 y0 t : t0 <> t1 -> (forall x, f x = peval c x) ->
  (length c <= n_pol + 1)%nat ->
  poly_integral lg f n_pol t0 t1 y0 t = y0 + RInt (peval c) t0 t.
Proof.
  intros Ht Hf Hc. unfold poly_integral. rewrite <- pint_at_RInt.
  pose proof (ceil_half_ge (n_pol + 1)) as C1.
  pose proof (ceil_half_pos (n_pol + 1) ltac:(lia)) as C2.
  pose proof (gauss_points_length (n_pol + 1) t0 t1 ltac:(lia)) as L.
  apply bary_poly_correct.
  - apply gauss_nodes_NoDup; [lia|exact Ht].
  - simpl. lia.
  - simpl. rewrite map_length. reflexivity.
  - assert (E : [y0] ++ map (fun ii => y0 + gauss_integral lg f (ceil_half (n_pol + 1)) t0 ii)
                     (gauss_points lg (n_pol + 1) t0 t1)
              = map (peval (pint_at t0 y0 c)) ([t0] ++ gauss_points lg (n_pol + 1) t0 t1)).
    { cbn [app map]. rewrite pint_at_val. f_equal. apply map_ext. intros p.
      rewrite pint_at_RInt. f_equal. apply gauss_integral_exact; [exact C2|exact Hf|lia]. }
    rewrite E. apply interpolates_self. rewrite pint_at_length. cbn [app length]. lia.
Qed.

Lemma map2_length {A B C} (f : A -> B -> C) l : forall m, length l = length m -> length (map2 f l m) = length l.
Proof. induction l; intros [|b m] E; try discriminate; [reflexivity|]. simpl. f_equal. apply IHl. now injection E. Qed.
Lemma nth_map2 {A B C} (f : A -> B -> C) l : forall m i da db dc, length l = length m -> (i < length l)%nat ->
  nth i (map2 f l m) dc = f (nth i l da) (nth i m db).
Proof.
  induction l; intros [|b m] i da db dc E Hi; simpl in *; try discriminate; try lia.
  destruct i; [reflexivity|]. apply IHl; [congruence|lia].
Qed.

(** The antiderivatives with values [y0] at [t0]. *)
Definition antiderivs (t0 : R) (y0 : vec) (cs : list (list R)) : list (list R) := map2 (pint_at t0) y0 cs.

Lemma poly_integral_2d_exact f cs n_pol t0 t1 y0 : t0 <> t1 -> (1 <= length cs)%nat ->
  poly_fun (n_pol + 1) f cs -> length y0 = length cs ->
  exists F, poly_integral_2d lg f n_pol t0 t1 y0 = Ok F /\
    poly_fun (n_pol + 2) F (antiderivs t0 y0 cs).
Proof.
  intros Ht Hd [Hl Hf] Ly.
  assert (Lf : forall t, length (f t) = length cs).
  { intros t. rewrite Hf. unfold state_at. apply map_length. }
  assert (LA : Forall (fun c => (length c <= n_pol + 2)%nat) (antiderivs t0 y0 cs)).
  { apply Forall_forall. intros c Hc. apply (In_nth _ _ []) in Hc. destruct Hc as (i & Hi & <-).
    unfold antiderivs in *. rewrite map2_length in Hi by exact Ly.
    rewrite (nth_map2 _ y0 cs i 0 []) by assumption. rewrite pint_at_length.
    rewrite Forall_forall in Hl. specialize (Hl (nth i cs []) ltac:(apply nth_In; lia)). lia. }
  unfold poly_integral_2d. rewrite Lf.
  destruct (Nat.eqb_spec (length cs) 1) as [E1|E1].
  - rewrite Ly, E1. simpl Nat.eqb. cbv iota. eexists. split; [reflexivity|]. split; [exact LA|].
    intros t. destruct cs as [|c [|]]; try discriminate. destruct y0 as [|y [|]]; try discriminate.
    unfold vnth at 2; cbn [nth antiderivs map2 state_at map]. inversion Hl; subst.
    rewrite (poly_integral_exact _ c); try assumption.
    + rewrite pint_at_RInt. reflexivity.
    + intros x. rewrite Hf. reflexivity.
  - rewrite Ly, Nat.eqb_refl. cbn [rbind]. eexists. split; [reflexivity|]. split; [exact LA|].
    intros t.
    pose proof (ceil_half_ge (n_pol + 1)) as C1.
    pose proof (ceil_half_pos (n_pol + 1) ltac:(lia)) as C2.
    pose proof (gauss_points_length (n_pol + 1) t0 t1 ltac:(lia)) as L.
    set (pts := gauss_points lg (n_pol + 1) t0 t1) in *.
    assert (E : map (fun r => y0 +v r) ([repeat 0 (length cs)] ++
               map (fun p => gauss_integral_2d lg f (ceil_half (n_pol + 1)) t0 p) pts)
             = map (state_at (antiderivs t0 y0 cs)) ([t0] ++ pts)).
    { rewrite !map_app, map_map. f_equal.
      - cbn [map]. f_equal. clear -Ly. revert y0 Ly. induction cs as [|c cs IH]; intros [|y y0] Ly; try discriminate; [reflexivity|].
        simpl in Ly. unfold vadd. cbn [state_at map map2 antiderivs repeat length]. rewrite pint_at_val. f_equal; [ring|]. apply IH. congruence.
      - apply map_ext. intros p. rewrite (gauss_integral_2d_exact f cs).
        + clear -Ly. revert y0 Ly. induction cs as [|c cs IH]; intros [|y y0] Ly; try discriminate; [reflexivity|].
          unfold vadd. cbn [state_at map map2 antiderivs repeat length]. rewrite pint_at_RInt. f_equal. apply IH. simpl in Ly. congruence.
        + exact C2.
        + split; [|exact Hf]. eapply Forall_impl; [|exact Hl]. simpl. intros; lia. }
    rewrite E.
    assert (LAn : length (antiderivs t0 y0 cs) = length cs).
    { unfold antiderivs. rewrite map2_length by exact Ly. exact Ly. }
    apply (bary_poly_2d_correct _ _ (length cs)).
    + apply gauss_nodes_NoDup; [lia|exact Ht].
    + simpl. lia.
    + split; [apply map_length|]. apply Forall_forall. intros r Hr. apply in_map_iff in Hr.
      destruct Hr as (p & <- & _). unfold state_at. rewrite map_length. exact LAn.
    + exact LAn.
    + intros j Hj. rewrite mcol_map.
      rewrite (map_ext _ (peval (nth j (antiderivs t0 y0 cs) []))).
      2:{ intros p. apply vnth_state_at. exact Hj. }
      apply interpolates_self. rewrite Forall_forall in LA.
      specialize (LA (nth j (antiderivs t0 y0 cs) []) ltac:(apply nth_In; exact Hj)).
      cbn [app length]. lia.
Qed.

Lemma poly_integral_2d_broadcast f cs n_pol t0 t1 y : (1 <= length cs)%nat ->
  (forall t, f t = state_at cs t) ->
  poly_integral_2d lg f n_pol t0 t1 [y] = poly_integral_2d lg f n_pol t0 t1 (repeat y (length cs)).
Proof.
  intros Hd Hf. unfold poly_integral_2d. rewrite Hf. unfold state_at. rewrite map_length, repeat_length.
  destruct (Nat.eqb_spec (length cs) 1) as [E|E].
  - rewrite E. reflexivity.
  - rewrite Nat.eqb_refl. cbn [length]. destruct (Nat.eqb_spec 1 (length cs)); [lia|].
    rewrite Nat.eqb_refl. reflexivity.
Qed.

(** ** Lagrange polynomials of a scheme *)
Definition lagrs (ts : vec) : list (list R) := map (lagr ts) (seq 0 (length ts)).

Lemma lagrs_length ts : length (lagrs ts) = length ts.
Proof. unfold lagrs. rewrite map_length. apply seq_length. Qed.
Lemma nth_lagrs ts j : (j < length ts)%nat -> nth j (lagrs ts) [] = lagr ts j.
Proof.
  intros H. unfold lagrs. rewrite (nth_indep _ [] (lagr ts 0)) by (rewrite map_length, seq_length; exact H).
  rewrite map_nth, seq_nth by exact H. reflexivity.
Qed.
Lemma lagrs_bound ts : Forall (fun c => (length c <= length ts)%nat) (lagrs ts).
Proof.
  apply Forall_forall. intros c Hc. apply in_map_iff in Hc. destruct Hc as (i & <- & Hi).
  apply in_seq in Hi. rewrite lagr_length by lia. lia.
Qed.

Lemma bary_eye ts t : NoDup ts -> (0 < length ts)%nat ->
  bary_poly_2d ts (eye (length ts)) t = state_at (lagrs ts) t.
Proof.
  intros ND Hn. apply (bary_poly_2d_correct _ _ (length ts)); try assumption.
  - apply eye_shaped.
  - apply lagrs_length.
  - intros j Hj. rewrite lagrs_length in Hj. rewrite nth_lagrs by exact Hj. split.
    + rewrite lagr_length by exact Hj. lia.
    + intros i Hi. rewrite lagr_at by assumption.
      rewrite vnth_mcol by (rewrite (shaped_length _ _ _ (eye_shaped _)); exact Hi).
      rewrite mget_eye by assumption. rewrite Nat.eqb_sym. reflexivity.
Qed.

Lemma Lag_pol_2d_ok N s order tc : coll_points rr N s order = Ok tc -> length tc = N -> NoDup tc ->
  (1 <= N)%nat -> exists f, Lag_pol_2d rr N s order = Ok f /\ poly_fun N f (lagrs tc).
Proof.
  intros E L ND HN. unfold Lag_pol_2d. rewrite E. cbn [rbind]. eexists. split; [reflexivity|].
  subst N. split; [apply lagrs_bound|]. intros t. apply bary_eye; [exact ND|lia].
Qed.

(** k-fold antiderivatives of the Lagrange polynomials. *)
Lemma antiderivs_pint n t0 cs k : length cs = n ->
  antiderivs t0 (repeat 0 n) (map (pint_n k t0) cs) = map (pint_n (S k) t0) cs.
Proof.
  revert cs. induction n; intros [|c cs] L; try discriminate; [reflexivity|].
  unfold antiderivs in *. simpl. f_equal. apply IHn. simpl in L. congruence.
Qed.

Lemma Lag_integ_2d_ok N s order tc k : coll_points rr N s order = Ok tc -> length tc = N -> NoDup tc ->
  (1 <= N)%nat -> exists f, Lag_integ_2d rr lg N s k order = Ok f /\
    poly_fun (N + k) f (map (pint_n k (-1)) (lagrs tc)).
Proof.
  intros E L ND HN. induction k as [|k (f & Ef & Pf)].
  - destruct (Lag_pol_2d_ok N s order tc E L ND HN) as (f & Ef & Pf). exists f. split; [exact Ef|].
    rewrite Nat.add_0_r. rewrite (map_ext _ (fun c => c)) by reflexivity. rewrite map_id. exact Pf.
  - cbn [Lag_integ_2d]. rewrite Ef. cbn [rbind].
    assert (LC : length (map (pint_n k (-1)) (lagrs tc)) = N) by (rewrite map_length, lagrs_length; exact L).
    destruct Pf as [B Hf].
    rewrite (poly_integral_2d_broadcast f _ _ _ _ _ ltac:(rewrite LC; exact HN) Hf). rewrite LC.
    destruct (poly_integral_2d_exact f (map (pint_n k (-1)) (lagrs tc)) (N + S k - 2) (-1) 1 (repeat 0 N))
      as (F & EF & PF).
    + lra.
    + rewrite LC. exact HN.
    + split; [|exact Hf]. eapply Forall_impl; [|exact B]. simpl. intros; lia.
    + rewrite repeat_length, LC. reflexivity.
    + exists F. split; [exact EF|]. rewrite (antiderivs_pint N (-1) (lagrs tc) k) in PF by (rewrite lagrs_length; exact L).
      destruct PF as [B' F']. split; [|exact F']. eapply Forall_impl; [|exact B']. simpl. intros; lia.
Qed.

(** ** Quadrature weights *)
Lemma lagr_weights_exact ts : NoDup ts -> (1 <= length ts)%nat ->
  gauss_integral_2d lg (bary_poly_2d ts (eye (length ts))) (ceil_half (length ts + 1)) (-1) 1 = gauss_weights ts.
Proof.
  intros ND Hn. pose proof (ceil_half_ge (length ts + 1)) as C.
  rewrite (gauss_integral_2d_exact _ (lagrs ts)).
  - unfold lagrs, gauss_weights. rewrite map_map. reflexivity.
  - apply ceil_half_pos. lia.
  - split.
    + eapply Forall_impl; [|apply lagrs_bound]. simpl. intros; lia.
    + intros t. apply bary_eye; [exact ND|lia].
Qed.

Lemma quad_exact_le d d' p w : (d' <= d)%nat -> quad_exact d p w -> quad_exact d' p w.
Proof. intros H [L Q]. split; [exact L|]. intros c Hc. apply Q. lia. Qed.

Lemma get_weights_u_ok N s order : In s all_schemes -> enough_points s N ->
  exists tc w, coll_points rr N s order = Ok tc /\ get_weights rr lg N s order "u" = Ok w /\
    length tc = N /\ quad_exact N tc w /\ (s = "LG"%string -> quad_exact (2 * N) tc w).
Proof.
  intros Hs HN. destruct (coll_points_ok rr HR s N order Hs HN) as (tc & E & L & I & _).
  pose proof (increasing_NoDup _ I) as ND. pose proof (proj1 HN) as HN1.
  destruct (String.eqb_spec s "LG") as [->|Hne].
  - exists tc, (snd (lg N)). split; [exact E|]. split; [reflexivity|]. split; [exact L|].
    assert (Q : quad_exact (2 * N) tc (snd (lg N))).
    { assert (tc = LG rr N) by (unfold coll_points in E; simpl in E; congruence). subst tc.
      rewrite <- (leggauss_LG rr lg N HR HL HN1). apply (HL N HN1). }
    split; [|intros _; exact Q]. eapply quad_exact_le; [|exact Q]. lia.
  - exists tc, (gauss_weights tc). split; [exact E|]. split.
    + unfold get_weights. simpl. destruct (String.eqb_spec s "LG"); [contradiction|].
      unfold Lag_pol_2d. rewrite E. cbn [rbind]. rewrite <- L. rewrite lagr_weights_exact; [reflexivity|exact ND|lia].
    + split; [exact L|]. split; [|contradiction]. rewrite <- L. apply interp_weights_exact; [exact ND|lia].
Qed.

Lemma get_weights_x_ok N s order tx : x_points rr N s = Ok tx -> length tx = N -> NoDup tx -> (1 <= N)%nat ->
  exists w, get_weights rr lg N s order "x" = Ok w /\ quad_exact N tx w.
Proof.
  intros E L ND HN. exists (gauss_weights tx). split.
  - unfold get_weights, Lag_pol_2d_x. simpl. rewrite E. cbn [rbind]. rewrite <- L.
    rewrite lagr_weights_exact; [reflexivity|exact ND|lia].
  - rewrite <- L. apply interp_weights_exact; [exact ND|lia].
Qed.

(** The weights add up to 2. *)
Lemma quad_exact_sum d p w : (1 <= d)%nat -> quad_exact d p w -> vsum w = 2.
Proof.
  intros Hd [L Q]. specialize (Q [1] ltac:(simpl; lia)).
  assert (I : RInt (peval [1]) (-1) 1 = 2) by (rewrite RInt_peval; unfold pint; simpl; req; field).
  rewrite I in Q. rewrite <- Q.
  clear -L. unfold vdot. revert p L. induction w as [|x w IH]; intros [|y p] L; try discriminate; [reflexivity|].
  cbn [map vmul map2 vsum fold_right]. change (map2 Rmult w (map (peval [1]) p)) with (vmul w (map (peval [1]) p)).
  change (fold_right Rplus 0) with vsum.
  rewrite <- (IH p) by (simpl in L; congruence). f_equal. simpl. ring.
Qed.
End Proofs.
