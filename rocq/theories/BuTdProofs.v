(** The matrices of the bottom-up and top-down schemes (C27). *)
From Coq Require Import String.
From Coquelicot Require Import Coquelicot.
From Verif Require Import Prelude PreludeFacts Poly PolyFacts PolyInterp Mat MatFacts
  PwInterpModel PsModel JacobiFacts PsSpec PsPointsProofs PsBaryProofs PsNodesProofs PsProblemProofs PsApplyProofs PsInterpProofs
  UtilModel UtilSpec GaussFacts UtilProofs BuTdModel BuTdSpec BuTdFacts.
Open Scope R_scope.
Open Scope vec_scope.
Open Scope list_scope.

Lemma vdot_app (a b c d : vec) : length a = length c -> vdot (a ++ b) (c ++ d) = vdot a c + vdot b d.
Proof.
  revert c. induction a as [|x a IH]; intros [|y c] H; simpl in H; try lia.
  - cbn [app]. change (vdot [] []) with 0. ring.
  - change ((x :: a) ++ b) with (x :: (a ++ b)). change ((y :: c) ++ d) with (y :: (c ++ d)).
    unfold vdot, vsum, vmul in *. cbn [map2 fold_right]. rewrite IH by lia. ring.
Qed.
Lemma vdot_repeat0 n c : length c = n -> vdot (repeat 0 n) c = 0.
Proof.
  intros H. rewrite (PreludeFacts.vdot_rsum) by (now rewrite repeat_length). apply rsum_zero.
  intros i _. unfold vnth. rewrite nth_repeat. ring.
Qed.
Lemma vdot_map_seq (f g : nat -> R) a b n : vdot (map f (seq a n)) (map g (seq b n)) = rsum n (fun i => f (a + i)%nat * g (b + i)%nat).
Proof.
  rewrite PreludeFacts.vdot_rsum by (now rewrite !map_length, !seq_length). rewrite map_length, seq_length.
  apply rsum_ext. intros i Hi. now rewrite !vnth_map_seq.
Qed.

(** The values that determine a polynomial with at most M + N coefficients. *)
Definition taylor_data (M : nat) (c : list R) (t0 : R) (times : vec) : vec :=
  map (fun k => peval (pderiv_n k c) t0) (seq 0 M) ++ map (peval (pderiv_n M c)) times.
Lemma taylor_data_length M c t0 times : length (taylor_data M c t0 times) = (M + length times)%nat.
Proof. unfold taylor_data. now rewrite app_length, !map_length, seq_length. Qed.

Section Bu.
Variable rr : list R -> list R.
Hypothesis OK : real_roots_ok rr.
Variable lg : nat -> vec * vec.
Hypothesis LGOK : leggauss_ok lg.

(** A row of the matrix, as numbers. *)
Definition integ_row (M P : nat) (h tau : R) (r : vec) : vec :=
  repeat 0 P ++ [1] ++ map (fun ii => ((1 + tau) * h / 2) ^ ii / INR (fact ii)) (seq 1 (M - P - 1))
  ++ (h / 2) ^ (M - P) *v r.
Lemma integ_row_length M P h tau r : (P < M)%nat -> length (integ_row M P h tau r) = (M + length r)%nat.
Proof.
  intros H. unfold integ_row. rewrite !app_length, repeat_length, map_length, seq_length, vscale_length. simpl. lia.
Qed.
Lemma integ_row_exact M P tc t0 tf c tau : (P < M)%nat -> NoDup tc -> (length c <= length tc + M)%nat ->
  vdot (integ_row M P (tf - t0) tau (state_at (map (pint_n (M - P) (-1)) (lagrs tc)) tau))
       (taylor_data M c t0 (tau_to_t_points tc t0 tf))
  = peval (pderiv_n P c) (tau_to_t tau t0 tf).
Proof.
  intros HP ND L. set (K := (M - P)%nat). set (h := tf - t0).
  assert (E1 : integ_row M P h tau (state_at (map (pint_n K (-1)) (lagrs tc)) tau)
    = (repeat 0 P ++ map (fun i => ((1 + tau) * h / 2) ^ i / INR (fact i)) (seq 0 K))
      ++ (h / 2) ^ K *v state_at (map (pint_n K (-1)) (lagrs tc)) tau).
  { unfold integ_row. fold K. rewrite <- app_assoc. f_equal. rewrite app_assoc. f_equal.
    replace K with (S (K - 1)) at 2 by (unfold K; lia). cbn [seq map app fact]. f_equal. simpl. field. }
  rewrite E1. unfold taylor_data. replace M with (P + K)%nat at 1 by (unfold K; lia).
  rewrite seq_app, map_app, Nat.add_0_l.
  rewrite vdot_app by (rewrite !app_length, repeat_length, !map_length, !seq_length; reflexivity).
  rewrite vdot_app by (rewrite repeat_length, map_length, seq_length; reflexivity).
  rewrite vdot_repeat0 by (now rewrite map_length, seq_length).
  rewrite vdot_map_seq.
  rewrite (taylor_integral (pderiv_n P c) t0 (tau_to_t tau t0 tf) K).
  rewrite Rplus_0_l. f_equal.
  - apply rsum_ext. intros i _. rewrite <- pderiv_n_add. rewrite Nat.add_0_l. f_equal. f_equal. f_equal.
    unfold tau_to_t, h. field.
  - rewrite pint_n_in_tau. fold h.
    rewrite PreludeFacts.vdot_rsum.
    2:{ rewrite vscale_length, state_at_length, !map_length. unfold lagrs. rewrite map_length, seq_length.
        now rewrite times_length. }
    rewrite vscale_length, state_at_length, map_length, lagrs_length.
    assert (IT : interpolates tc (map (peval (pderiv_n M c)) (tau_to_t_points tc t0 tf)) (in_tau t0 tf (pderiv_n M c))).
    { split.
      - rewrite in_tau_length, pderiv_n_length. lia.
      - intros i Hi. rewrite peval_in_tau. unfold vnth at 2.
        rewrite (nth_map' _ _ _ 0) by (now rewrite times_length).
        fold (vnth (tau_to_t_points tc t0 tf) i). now rewrite vnth_times. }
    rewrite <- pderiv_n_add. replace (P + K)%nat with M by (unfold K; lia).
    rewrite (pint_n_ext K (-1) _ (plin (length tc) (vnth (map (peval (pderiv_n M c)) (tau_to_t_points tc t0 tf))) (lagr tc))).
    + rewrite pint_n_plin, <- rsum_scal. apply rsum_ext. intros i Hi. rewrite vnth_vscale.
      rewrite vnth_state_at by (now rewrite map_length, lagrs_length).
      rewrite (nth_map' _ _ _ []) by (now rewrite lagrs_length). rewrite nth_lagrs by exact Hi. ring.
    + intros x. rewrite peval_plin. now rewrite (interp_lagr tc _ _ ND IT).
Qed.

(** When the code can build the matrix. *)
Definition bu_sized (s : string) (N : nat) : Prop := In s gauss_schemes -> (2 <= N)%nat.

Lemma Integration_Matrix_ok s N P h M : In s bt_schemes -> enough_points s N -> bu_sized s N -> (P < M)%nat ->
  exists tc tx A, BU_coll_points rr N s M = Ok tc /\ BU_construction_points rr N s M = Ok tx /\
    Integration_Matrix rr lg N s P h M = Ok A /\ length tc = N /\ NoDup tc /\
    shaped (length tx) (M + N) A /\
    forall i, (i < length tx)%nat ->
      mrow i A = integ_row M P h (vnth tx i) (state_at (map (pint_n (M - P) (-1)) (lagrs tc)) (vnth tx i)).
Proof.
  intros H E B HP. destruct (bt_points rr OK s N M H E) as (c & S & Ec & Ec' & Ex & _ & _ & L).
  set (tc := with_ends (starts s) (ends s) c) in *. set (tx := with_ends false true c) in *.
  assert (ND : NoDup tc) by (now apply (with_ends_NoDup _ _ _ _ S)).
  exists tc, tx. unfold Integration_Matrix.
  destruct (Nat.ltb_spec P M) as [_|]; [|lia]. cbn [negb].
  unfold Integration_Polynomial_Matrix. rewrite Ex. cbn [rbind].
  destruct (Lag_integ_2d_ok rr lg LGOK N s M tc (M - P) Ec' L ND (proj1 E)) as (f & Ef & F).
  rewrite Ef. cbn [rbind].
  assert (G : ((N =? 1)%nat && negb (length tx =? 1)%nat)%bool = false).
  { destruct (Nat.eqb_spec N 1) as [N1|]; [|reflexivity]. cbn [andb].
    unfold tx. rewrite with_ends_length. destruct S as [-> _]. clear L Ec Ec' Ex Ef F. subst N.
    destruct E as [_ E]. clear - H B E. unfold bu_sized in B.
    bt_cases H; try (exfalso; assert (2 <= 1)%nat by (apply B; cbv; tauto); lia); try reflexivity;
      exfalso; assert (2 <= 1)%nat by (apply E; cbv; tauto); lia. }
  rewrite G. eexists. split; [exact Ec|]. split; [reflexivity|]. split; [reflexivity|].
  split; [exact L|]. split; [exact ND|].
  assert (LM : length (map f tx) = length tx) by apply map_length.
  assert (RW : forall i, (i < length tx)%nat ->
    mrow i (map2 (fun tau r => repeat 0 P ++ [1] ++
              map (fun ii => ((1 + tau) * h / 2) ^ ii / INR (fact ii)) (seq 1 (M - P - 1)) ++ (h / 2) ^ (M - P) *v r)
            tx (map f tx))
    = integ_row M P h (vnth tx i) (state_at (map (pint_n (M - P) (-1)) (lagrs tc)) (vnth tx i))).
  { intros i Hi. unfold mrow. rewrite (PreludeFacts.nth_map2 _ _ _ _ 0 []) by (rewrite ?LM; exact Hi).
    rewrite (nth_map' _ _ _ 0) by exact Hi. fold (vnth tx i). destruct F as [_ F]. rewrite F. reflexivity. }
  split; [|exact RW].
  assert (LA : forall g : R -> vec -> vec, length (map2 g tx (map f tx)) = length tx) by (intros g; rewrite UtilProofs.map2_length; auto).
  split; [apply LA|]. apply Forall_forall. intros r I. destruct (In_nth _ _ [] I) as (i & Hi & <-).
  rewrite LA in Hi. fold (mrow i (map2 (fun tau r => repeat 0 P ++ [1] ++
              map (fun ii => ((1 + tau) * h / 2) ^ ii / INR (fact ii)) (seq 1 (M - P - 1)) ++ (h / 2) ^ (M - P) *v r)
            tx (map f tx))).
  rewrite RW by exact Hi. rewrite integ_row_length by exact HP.
  rewrite state_at_length, map_length, lagrs_length, L. reflexivity.
Qed.

(** The matrix integrates: applied to the derivatives of a polynomial at the
    start and its highest derivative at the collocation times, it gives the
    derivative of order P at the construction times. *)
Lemma Integration_Matrix_exact s N P M t0 tf : In s bt_schemes -> enough_points s N -> bu_sized s N -> (P < M)%nat ->
  exists tc tx A, BU_coll_points rr N s M = Ok tc /\ BU_construction_points rr N s M = Ok tx /\
    Integration_Matrix rr lg N s P (tf - t0) M = Ok A /\ shaped (length tx) (M + N) A /\
    forall c i, (length c <= N + M)%nat -> (i < length tx)%nat ->
      vdot (mrow i A) (map (fun k => Derive_n (peval c) k t0) (seq 0 M) ++
                       map (Derive_n (peval c) M) (tau_to_t_points tc t0 tf))
      = Derive_n (peval c) P (tau_to_t (vnth tx i) t0 tf).
Proof.
  intros H E B HP. destruct (Integration_Matrix_ok s N P (tf - t0) M H E B HP) as (tc & tx & A & Ec & Ex & EA & L & ND & S & R).
  exists tc, tx, A. split; [exact Ec|]. split; [exact Ex|]. split; [exact EA|]. split; [exact S|].
  intros c i Lc Hi. rewrite R by exact Hi. rewrite Derive_n_peval.
  rewrite <- (integ_row_exact M P tc t0 tf c (vnth tx i) HP ND) by lia.
  f_equal. unfold taylor_data. f_equal; apply map_ext; intros; apply Derive_n_peval.
Qed.

Lemma Integration_Matrix_order s N P h M : (M <= P)%nat -> Integration_Matrix rr lg N s P h M = Err AssertionError.
Proof. intros H. unfold Integration_Matrix. destruct (Nat.ltb_spec P M); [lia|reflexivity]. Qed.
Lemma Integration_Matrix_single s P h M : In s gauss_schemes -> (P < M)%nat ->
  Integration_Matrix rr lg 1 s P h M = Err ValueError.
Proof.
  intros H HP.
  assert (Hb : In s bt_schemes) by (cbv in H; cbv; tauto).
  assert (E : enough_points s 1) by (split; [lia|intros I; exfalso; cbv in H, I; intuition (subst; discriminate)]).
  destruct (bt_points rr OK s 1 M Hb E) as (c & S & Ec & Ec' & Ex & _ & _ & L).
  set (tc := with_ends (starts s) (ends s) c) in *.
  assert (ND : NoDup tc) by (now apply (with_ends_NoDup _ _ _ _ S)).
  unfold Integration_Matrix. destruct (Nat.ltb_spec P M) as [_|]; [|lia]. cbn [negb].
  unfold Integration_Polynomial_Matrix. rewrite Ex. cbn [rbind].
  destruct (Lag_integ_2d_ok rr lg LGOK 1 s M tc (M - P) Ec' L ND (proj1 E)) as (f & Ef & F).
  rewrite Ef. cbn [rbind].
  rewrite with_ends_length. destruct S as [-> _].
  cbv [gauss_schemes In] in H. destruct H as [<-|[<-|[<-|[]]]]; reflexivity.
Qed.

(** Unit polynomials. *)
Lemma unit_interp tc n : NoDup tc -> (n < length tc)%nat ->
  interpolates tc (map (fun i => if (i =? n)%nat then 1 else 0) (seq 0 (length tc))) (lagr tc n).
Proof.
  intros ND H. split; [rewrite lagr_length by exact H; lia|]. intros i Hi.
  rewrite lagr_at by assumption. rewrite vnth_map_seq by exact Hi. now rewrite Nat.add_0_l, Nat.eqb_sym.
Qed.
Lemma BU_unit_ok s N n M : In s bt_schemes -> enough_points s N ->
  exists tc, BU_coll_points rr N s M = Ok tc /\ length tc = N /\ NoDup tc /\
    ((n < N)%nat -> exists f, BU_unit_Lag_pol rr N s n M = Ok f /\ forall x, f x = peval (lagr tc n) x) /\
    ((N <= n)%nat -> BU_unit_Lag_pol rr N s n M = Err IndexError).
Proof.
  intros H E. destruct (bt_points rr OK s N M H E) as (c & S & Ec & _ & _ & _ & _ & L).
  set (tc := with_ends (starts s) (ends s) c) in *.
  assert (ND : NoDup tc) by (now apply (with_ends_NoDup _ _ _ _ S)).
  exists tc. split; [exact Ec|]. split; [exact L|]. split; [exact ND|].
  unfold BU_unit_Lag_pol. rewrite Ec. cbn [rbind]. split; intros Hn.
  - destruct (Nat.leb_spec N n); [lia|]. eexists. split; [reflexivity|]. intros x.
    apply bary_poly_correct; try assumption.
    + lia.
    + now rewrite map_length, seq_length.
    + rewrite <- L. apply unit_interp; [exact ND|lia].
  - destruct (Nat.leb_spec N n); [reflexivity|lia].
Qed.

(** The single entries computed by repeated Gauss integration are the entries
    of the matrix of integrated polynomials. *)
Lemma Lag_integ_ok s N n P i M : In s bt_schemes -> enough_points s N -> (n < N)%nat -> (P < M)%nat ->
  exists tc tx, BU_coll_points rr N s M = Ok tc /\ BU_construction_points rr N s M = Ok tx /\
    ((i < length tx)%nat -> Lag_integ rr lg N n s P i M = Ok (rep_RInt (M - P) (peval (lagr tc n)) (-1) (vnth tx i))).
Proof.
  intros H E Hn HP. destruct (BU_unit_ok s N n M H E) as (tc & Ec & L & ND & U & _).
  destruct (U Hn) as (f & Ef & F). clear U.
  destruct (bt_points rr OK s N M H E) as (c & _ & _ & _ & Ex & _).
  exists tc. eexists. split; [exact Ec|]. split; [exact Ex|]. intros Hi.
  unfold Lag_integ. rewrite Ex. cbn [rbind].
  destruct (Nat.leb_spec (length (with_ends false true c)) i); [lia|].
  rewrite Ef. cbn [rbind]. f_equal. apply gauss_rep_integral_exact; try assumption; [lia|].
  rewrite lagr_length by lia. destruct E as [E _]. lia.
Qed.

Lemma Extreme_Matrix_ok s N point p M : In s bt_schemes -> enough_points s N ->
  In (point, p) [("start"%string, -1); ("end"%string, 1)] ->
  exists tc A, BU_coll_points rr N s M = Ok tc /\ length tc = N /\ NoDup tc /\
    Extreme_Matrix rr N s point M = Ok A /\ shaped 1 N A /\
    mrow 0 A = map (fun j => peval (lagr tc j) p) (seq 0 N).
Proof.
  intros H E I. destruct (BU_unit_ok s N 0 M H E) as (tc & Ec & L & ND & _).
  exists tc, [map (fun j => peval (lagr tc j) p) (seq 0 N)].
  split; [exact Ec|]. split; [exact L|]. split; [exact ND|]. split.
  - unfold Extreme_Matrix.
    rewrite (mapm_ext _ (fun j => Ok (peval (lagr tc j) p))).
    + now rewrite mapm_Ok.
    + intros j Hj. apply in_seq in Hj.
      destruct (BU_unit_ok s N j M H E) as (tc' & Ec' & _ & _ & U & _). rewrite Ec in Ec'. injection Ec' as <-.
      destruct (U ltac:(lia)) as (f & Ef & F). rewrite Ef. cbn [rbind].
      destruct I as [I|[I|[]]]; injection I as <- <-; cbn [String.eqb Ascii.eqb Bool.eqb]; now rewrite F.
  - split; [|reflexivity]. split; [reflexivity|]. constructor; [|constructor].
    now rewrite map_length, seq_length.
Qed.
Lemma Extreme_Matrix_exact s N point p M t0 tf : In s bt_schemes -> enough_points s N ->
  In (point, p) [("start"%string, -1); ("end"%string, 1)] ->
  exists tc A, BU_coll_points rr N s M = Ok tc /\ Extreme_Matrix rr N s point M = Ok A /\ shaped 1 N A /\
    forall c, (length c <= N)%nat ->
      vdot (mrow 0 A) (map (peval c) (tau_to_t_points tc t0 tf)) = peval c (tau_to_t p t0 tf).
Proof.
  intros H E I. destruct (Extreme_Matrix_ok s N point p M H E I) as (tc & A & Ec & L & ND & EA & S & R).
  exists tc, A. split; [exact Ec|]. split; [exact EA|]. split; [exact S|]. intros c Lc. rewrite R.
  rewrite <- peval_in_tau.
  assert (IT : interpolates tc (map (peval c) (tau_to_t_points tc t0 tf)) (in_tau t0 tf c)).
  { split; [rewrite in_tau_length; lia|]. intros i Hi. rewrite peval_in_tau. unfold vnth at 2.
    rewrite (nth_map' _ _ _ 0) by (now rewrite times_length).
    fold (vnth (tau_to_t_points tc t0 tf) i). now rewrite vnth_times. }
  rewrite (interp_lagr tc _ _ ND IT).
  rewrite PreludeFacts.vdot_rsum by (rewrite !map_length, seq_length; now rewrite times_length).
  rewrite map_length, seq_length, L. apply rsum_ext. intros i Hi. rewrite vnth_map_seq by exact Hi.
  rewrite Nat.add_0_l. ring.
Qed.
Lemma Extreme_Matrix_point s N point M : In s bt_schemes -> enough_points s N -> point <> "start"%string -> point <> "end"%string ->
  Extreme_Matrix rr N s point M = Err ValueError.
Proof.
  intros H E P1 P2. unfold Extreme_Matrix. destruct N as [|N]; [destruct E; lia|].
  destruct (BU_unit_ok s (S N) 0 M H E) as (tc & _ & _ & _ & U & _). destruct (U ltac:(lia)) as (f & Ef & _).
  cbn [seq mapm]. rewrite Ef. cbn [rbind].
  apply String.eqb_neq in P1, P2. rewrite P1, P2. reflexivity.
Qed.

(** ** Top-down *)
Lemma matrix_D_nu_ok n : (2 <= n)%nat -> exists c, inner_set (n - 2) c /\ LGL rr n = with_ends true true c /\
  length (LGL rr n) = n /\ NoDup (LGL rr n) /\ matrix_D_nu rr n = Ok (Dmat (LGL rr n)).
Proof.
  intros Hn. destruct (LGL_set rr OK n Hn) as (c & Ec & S). exists c.
  assert (L : length (LGL rr n) = n).
  { rewrite Ec, with_ends_length. destruct S as [-> _]. simpl. lia. }
  split; [exact S|]. split; [exact Ec|]. split; [exact L|].
  split; [rewrite Ec; now apply (with_ends_NoDup _ _ _ _ S)|].
  unfold matrix_D_nu. apply matrix_D_bary_ok; [reflexivity|exact L].
Qed.
Lemma matrix_L_ok s N M : In s bt_schemes -> enough_points s N -> (1 <= M)%nat ->
  exists tx L, TD_construction_points rr N s M = Ok tx /\ matrix_L rr N s M = Ok L /\
    shaped (length tx) (N + M) L /\
    forall i, (i < length tx)%nat -> mrow i L = state_at (lagrs (LGL rr (N + M))) (vnth tx i).
Proof.
  intros H E HM. destruct (bt_points rr OK s N M H E) as (c & S & _ & _ & _ & Ex & _).
  destruct (matrix_D_nu_ok (N + M)) as (c' & _ & _ & L & ND & _); [destruct E; lia|].
  exists (with_ends true true c). unfold matrix_L. rewrite Ex. cbn [rbind].
  destruct (Lag_pol_2d_ok rr (N + M) "LGL" 2 (LGL rr (N + M)) eq_refl L ND) as (f & Ef & [_ F]); [lia|].
  rewrite Ef. cbn [rbind]. eexists. split; [reflexivity|]. split; [reflexivity|].
  assert (RW : forall i, (i < length (with_ends true true c))%nat ->
     mrow i (map f (with_ends true true c)) = state_at (lagrs (LGL rr (N + M))) (vnth (with_ends true true c) i)).
  { intros i Hi. unfold mrow. rewrite (nth_map' _ _ _ 0) by exact Hi. apply F. }
  split; [|exact RW]. split; [apply map_length|]. apply Forall_forall. intros r I.
  apply in_map_iff in I. destruct I as (t & <- & _). rewrite F, state_at_length, lagrs_length. exact L.
Qed.
(** Values of a derivative of the configuration polynomial at the construction
    points from the values at the Lobatto points. *)
Lemma td_row_exact ts tau Y y c k t0 tf : NoDup ts -> t0 <> tf ->
  interpolates (tau_to_t_points ts t0 tf) y c -> length y = length ts ->
  Y = map (fun i => peval (pderiv_n k (in_tau t0 tf c)) (vnth ts i)) (seq 0 (length ts)) ->
  (2 / (tf - t0)) ^ k * vdot (state_at (lagrs ts) tau) Y = peval (pderiv_n k c) (tau_to_t tau t0 tf).
Proof.
  intros ND T I Ly ->.
  assert (IT : interpolates ts (map (fun i => peval (pderiv_n k (in_tau t0 tf c)) (vnth ts i)) (seq 0 (length ts)))
     (pderiv_n k (in_tau t0 tf c))).
  { split.
    - rewrite pderiv_n_length, in_tau_length. destruct I as [I _]. rewrite times_length in I. lia.
    - intros i Hi. rewrite vnth_map_seq by exact Hi. reflexivity. }
  rewrite PreludeFacts.vdot_rsum by (rewrite state_at_length, lagrs_length, map_length, seq_length; reflexivity).
  rewrite state_at_length, lagrs_length.
  rewrite (rsum_ext _ _ (fun i => vnth (map (fun i => peval (pderiv_n k (in_tau t0 tf c)) (vnth ts i)) (seq 0 (length ts))) i * peval (lagr ts i) tau)).
  - rewrite <- (interp_lagr ts _ _ ND IT). rewrite pderiv_n_in_tau, <- Rmult_assoc, <- Rpow_mult_distr.
    replace (2 / (tf - t0) * ((tf - t0) / 2)) with 1 by (field; lra). rewrite pow1. ring.
  - intros i Hi. rewrite vnth_state_at by (now rewrite lagrs_length). rewrite nth_lagrs by exact Hi. ring.
Qed.
End Bu.
