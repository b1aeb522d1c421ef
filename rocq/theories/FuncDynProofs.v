From Coq Require Import String.
From Verif Require Import Prelude PreludeFacts PwModel FuncDynModel FuncDynSpec BuTdApplyProofs.
Open Scope string_scope.
Open Scope list_scope.
Open Scope R_scope.

Lemma blocks_concat_length n M qs : blocks n M qs -> length (concat qs) = (M * n)%nat.
Proof.
  intros [L F]. revert M L. induction F as [|q r H F IH]; intros M L; cbn in *; subst; [lia|].
  rewrite app_length, (IH _ eq_refl). lia.
Qed.
Lemma blocks_skip n M qs : blocks n (S M) qs -> skipn n (concat qs) = concat (tl qs).
Proof.
  intros [L F]. destruct F as [|q r H F]; [discriminate|]. cbn. rewrite skipn_app, H, Nat.sub_diag, skipn_all2 by lia. reflexivity.
Qed.
Lemma slice_blocks n qs : Forall (fun q : vec => length q = n) qs -> forall k, (k < length qs)%nat ->
  slice (n * k) (n * (k + 1)) (concat qs) = nth k qs [].
Proof.
  induction 1 as [|q r H F IH]; intros k K; cbn in K; [lia|]. destruct k as [|k].
  - cbn [nth concat]. rewrite Nat.mul_0_r. replace (n * (0 + 1))%nat with n by lia. apply slice_app_l. exact H.
  - cbn [nth concat]. replace (n * S k)%nat with (n + n * k)%nat by lia. replace (n * (S k + 1))%nat with (n + n * (k + 1))%nat by lia.
    rewrite slice_skip, skipn_app, H, Nat.sub_diag, skipn_all2 by lia. cbn [app skipn]. apply IH. lia.
Qed.
Lemma cut_blocks n M qs : blocks n M qs ->
  map (fun ii => slice (n * ii) (n * (ii + 1)) (concat qs)) (seq 0 M) = qs.
Proof.
  intros [L F]. apply nth_ext with (d := []) (d' := []); [rewrite map_length, seq_length; lia|].
  intros k K. rewrite map_length, seq_length in K. 
  rewrite nth_indep with (d' := slice (n * 0) (n * (0 + 1)) (concat qs)) by (rewrite map_length, seq_length; lia).
  rewrite (map_nth (fun ii => slice (n * ii) (n * (ii + 1)) (concat qs))), seq_nth by lia. cbn [plus].
  apply slice_blocks; [exact F|lia].
Qed.
Lemma divisions n M qs : (0 < M)%nat -> blocks n M qs -> get_x_divisions (concat qs) M = qs.
Proof.
  intros P B. unfold get_x_divisions. rewrite (blocks_concat_length _ _ _ B).
  rewrite Nat.mul_comm, Nat.div_mul by lia. apply cut_blocks. exact B.
Qed.

Lemma vsub_zero : forall a b, length a = length b -> (all_zero (vsub a b) <-> a = b).
Proof.
  induction a as [|x a IH]; intros [|y b] L; cbn in L; try lia.
  - split; [reflexivity|constructor].
  - unfold vsub. cbn [map2]. split.
    + intros Z. inversion Z; subst. f_equal; [lra|]. apply IH; [lia|exact H2].
    + intros [= -> ->]. constructor; [lra|]. apply IH; [lia|reflexivity].
Qed.
Lemma cas_sub_holds a b : length a = length b -> (holds (cas_sub a b) <-> a = b).
Proof.
  intros L. unfold cas_sub. rewrite (proj2 (Nat.eqb_eq _ _) L). split.
  - intros [v [[= <-] Z]]. exact (proj1 (vsub_zero _ _ L) Z).
  - intros E. exists (vsub a b). split; [reflexivity|]. exact (proj2 (vsub_zero _ _ L) E).
Qed.
Lemma ok_holds v : holds (Ok v) <-> all_zero v.
Proof. split; [intros [w [[= <-] Z]]; exact Z|intros Z; exists v; auto]. Qed.

Lemma all_zero_app a b : all_zero (a ++ b) <-> all_zero a /\ all_zero b.
Proof. apply Forall_app. Qed.

Lemma app_split {A} n (x a b : list A) : length a = n -> (x = a ++ b <-> firstn n x = a /\ skipn n x = b).
Proof.
  intros L. split.
  - intros ->. rewrite firstn_app, skipn_app, L, Nat.sub_diag, firstn_O, app_nil_r. cbn [skipn].
    rewrite firstn_all2, skipn_all2 by lia. auto.
  - intros [<- <-]. symmetry. apply firstn_skipn.
Qed.

Lemma tl_blocks n M qs : blocks n (S M) qs -> blocks n M (tl qs).
Proof. intros [L F]. destruct F; [discriminate|]. cbn in L. split; [cbn; lia|exact F]. Qed.
Lemma blocks_pos n M qs : blocks n M qs -> (0 < M)%nat -> qs <> [].
Proof. intros [L _] P ->. cbn in L. lia. Qed.

Section Kinds.
Context (n_q M : nat) (g : list vec -> vec -> vec -> vec).
Hypothesis Hn : (0 < n_q)%nat.
Hypothesis HM : (0 < M)%nat.
Hypothesis Hg : forall qs u p, blocks n_q M qs -> length (g qs u p) = n_q.

Let right_f (d : func_dynamics) : Prop := forall qs xd u lam p, blocks n_q M qs -> length xd = (M * n_q)%nat ->
  (holds (fd_f_restr d (concat qs) xd u lam p) <-> xd = concat (tl qs) ++ g qs u p).
Let right_g (d : func_dynamics) : Prop := forall qs a u lam p, blocks n_q M qs -> length a = n_q ->
  (holds (fd_g_restr d (qs ++ [a]) u lam p) <-> a = g qs u p).

Lemma tl_len qs : blocks n_q M qs -> length (concat (tl qs)) = ((M - 1) * n_q)%nat.
Proof. clear right_f right_g Hg. intros B. destruct M as [|m]; [lia|]. rewrite (blocks_concat_length _ _ _ (tl_blocks _ _ _ B)). f_equal. lia. Qed.
Lemma all_len qs u p : blocks n_q M qs -> length (concat (tl qs) ++ g qs u p) = (M * n_q)%nat.
Proof. intros B. rewrite app_length, (tl_len _ B), (Hg _ _ _ B). destruct M; [lia|]. cbn. rewrite Nat.sub_0_r. lia. Qed.

Lemma f_x_ok LM : is_f_x n_q M g LM -> exists d, function_dynamic_setup LM "f_x" n_q 0 M = Ok d /\ right_f d /\ right_g d.
Proof.
  intros I. eexists. split; [reflexivity|]. split.
  - intros qs xd u lam p B L. cbn [fd_f_restr]. rewrite (I _ _ _ B). apply cas_sub_holds. rewrite L, (all_len _ _ _ B). reflexivity.
  - intros qs a u lam p B L. cbn [fd_g_restr]. rewrite last_last, removelast_last. unfold reduce_F.
    rewrite (I _ _ _ B). assert (D : length (hd [] qs) = n_q).
    { destruct B as [BL F]. destruct F; [cbn in BL; lia|exact H]. }
    rewrite D, lastn_app by (auto using Hg). apply cas_sub_holds. rewrite L, (Hg _ _ _ B). reflexivity.
Qed.

Lemma g_q_ok LM : (M * n_q / 2 = n_q)%nat -> is_g_q n_q M g LM ->
  exists d, function_dynamic_setup LM "g_q" n_q 0 M = Ok d /\ right_f d /\ right_g d.
Proof.
  intros D I. eexists. split; [reflexivity|]. split.
  - intros qs xd u lam p B L. cbn [fd_f_restr]. unfold expand_G_cas, expand_F_cas.
    rewrite (divisions n_q M qs HM B), (I _ _ _ B), (blocks_concat_length _ _ _ B), D.
    assert (E : skipn n_q (concat qs) = concat (tl qs)). { clear - B HM. destruct M as [|m]; [lia|]. exact (blocks_skip _ _ _ B). }
    rewrite E. apply cas_sub_holds. rewrite L, (all_len _ _ _ B). reflexivity.
  - intros qs a u lam p B L. cbn [fd_g_restr]. rewrite last_last, removelast_last, (I _ _ _ B).
    apply cas_sub_holds. rewrite L, (Hg _ _ _ B). reflexivity.
Qed.

Lemma f_x_impl_ok LM : is_f_x_impl n_q M g LM ->
  exists d, function_dynamic_setup LM "f_x_impl" n_q 0 M = Ok d /\ right_f d /\ right_g d.
Proof.
  intros I. eexists. split; [reflexivity|]. split.
  - intros qs xd u lam p B L. cbn [fd_f_restr]. rewrite ok_holds.
    destruct (I qs xd u lam p B L) as [kin [dyn [E [LD [K D]]]]]. rewrite E, all_zero_app, K, D.
    rewrite (app_split ((M - 1) * n_q) xd) by (apply tl_len; exact B). tauto.
  - intros qs a u lam p B L. cbn [fd_g_restr]. rewrite ok_holds, removelast_last.
    assert (T : tl (qs ++ [a]) = tl qs ++ [a]). { destruct qs; [exfalso; exact (blocks_pos _ _ _ B HM eq_refl)|reflexivity]. }
    rewrite T, concat_app. cbn [concat]. rewrite app_nil_r.
    assert (LX : length (concat (tl qs) ++ a) = (M * n_q)%nat). { rewrite app_length, (tl_len _ B), L. clear -HM. destruct M; [lia|]. cbn. rewrite Nat.sub_0_r. lia. }
    destruct (I qs (concat (tl qs) ++ a) u lam p B LX) as [kin [dyn [E [LD [K D]]]]].
    rewrite E, lastn_app, D by assumption.
    rewrite skipn_app, (tl_len _ B), Nat.sub_diag, skipn_all2 by (rewrite (tl_len _ B); lia). cbn. tauto.
Qed.

Lemma g_q_impl_ok LM : is_g_q_impl n_q M g LM ->
  exists d, function_dynamic_setup LM "g_q_impl" n_q 0 M = Ok d /\ right_f d /\ right_g d.
Proof.
  intros I. eexists. split; [reflexivity|]. split.
  - intros qs xd u lam p B L. cbn [fd_f_restr]. rewrite ok_holds, (cut_blocks n_q M qs B).
    set (xl := map (fun ii => slice (n_q * ii) (n_q * (ii + 1)) xd) (seq 0 M)).
    assert (LB : forall k, (k < M)%nat -> length (slice (n_q * k) (n_q * (k + 1)) xd) = n_q).
    { intros k K. rewrite slice_length, L. replace (n_q * (k + 1) - n_q * k)%nat with n_q by lia.
      apply Nat.min_l. assert (n_q * (k + 1) <= n_q * M)%nat by (apply Nat.mul_le_mono_l; lia). lia. }
    assert (BX : blocks n_q M xl).
    { split; [unfold xl; rewrite map_length, seq_length; reflexivity|]. unfold xl. rewrite Forall_forall. intros q Hq.
      apply in_map_iff in Hq. destruct Hq as [k [<- K]]. apply in_seq in K. apply LB. lia. }
    assert (CX : concat xl = xd).
    { unfold xl. rewrite <- (flat_map_concat_map (fun ii => slice (n_q * ii) (n_q * (ii + 1)) xd)).
      symmetry. set (f := fun k => if (k <? M)%nat then slice (n_q * k) (n_q * (k + 1)) xd else repeat 0 n_q).
      assert (EQ : flat_map f (seq 0 M) = flat_map (fun ii => slice (n_q * ii) (n_q * (ii + 1)) xd) (seq 0 M)).
      { rewrite !flat_map_concat_map. f_equal. apply map_ext_in. intros k K. apply in_seq in K. unfold f.
        destruct (Nat.ltb_spec k M); [reflexivity|lia]. }
      rewrite <- EQ. apply (blocks_iff f n_q M xd L).
      - intros k. unfold f. destruct (Nat.ltb_spec k M); [apply LB; assumption|apply repeat_length].
      - intros k K. unfold f. destruct (Nat.ltb_spec k M); [reflexivity|lia]. }
    assert (NE : xl <> []) by exact (blocks_pos _ _ _ BX HM).
    destruct (exists_last NE) as [xi [a EX]].
    assert (LA : length a = n_q). { destruct BX as [_ F]. rewrite EX in F. apply Forall_app in F. destruct F as [_ F]. inversion F; assumption. }
    assert (LXI : length xi = (M - 1)%nat). { destruct BX as [F _]. rewrite EX, app_length in F. cbn in F. lia. }
    assert (FXI : Forall (fun q => length q = n_q) xi). { destruct BX as [_ F]. rewrite EX in F. apply Forall_app in F. tauto. }
    rewrite all_zero_app. rewrite EX at 1. rewrite last_last.
    rewrite (I qs a u lam p B LA). rewrite <- CX, EX, concat_app. cbn [concat]. rewrite app_nil_r.
    assert (BT : length (tl qs) = (M - 1)%nat /\ Forall (fun q => length q = n_q) (tl qs)).
    { destruct B as [BL BF]. destruct BF; [cbn in BL; lia|]. cbn in BL |- *. split; [lia|assumption]. }
    assert (P : all_zero (concat (map (fun ii => vsub (nth ii (xi ++ [a]) []) (nth (ii + 1) qs [])) (seq 0 (M - 1)))) <-> xi = tl qs).
    { destruct BT as [TL TF]. clear - LXI FXI TL TF HM B. destruct B as [BL _].
      assert (NT : forall k, nth (k + 1) qs [] = nth k (tl qs) []). { intros k. rewrite Nat.add_1_r. destruct qs; [destruct k; reflexivity|reflexivity]. }
      assert (Q : forall (zs ts : list vec) m s, length zs = m -> length ts = m -> Forall (fun q => length q = n_q) zs -> Forall (fun q => length q = n_q) ts ->
         (all_zero (concat (map (fun ii => vsub (nth (ii - s) zs []) (nth (ii - s) ts [])) (seq s m))) <-> zs = ts)).
      { clear. induction zs as [|z zs IH]; intros ts m s L1 L2 F1 F2.
        - cbn in L1. subst m. destruct ts; [|discriminate]. cbn. split; [reflexivity|constructor].
        - destruct ts as [|t ts]; [cbn in L2; subst; discriminate|]. destruct m as [|m]; [discriminate|].
          inversion F1; subst. inversion F2; subst.
          cbn [seq map concat]. rewrite Nat.sub_diag. cbn [nth]. rewrite all_zero_app, vsub_zero by congruence.
          rewrite (map_ext_in _ (fun ii => vsub (nth (ii - S s) zs []) (nth (ii - S s) ts []))).
          2:{ intros k K. apply in_seq in K. replace (k - s)%nat with (S (k - S s)) by lia. reflexivity. }
          rewrite (IH ts m (S s)) by (cbn in *; try lia; assumption).
          split; [intros [-> ->]; reflexivity|intros [= -> ->]; auto]. }
      rewrite (map_ext_in _ (fun ii => vsub (nth (ii - 0) xi []) (nth (ii - 0) (tl qs) []))).
      2:{ intros k K. apply in_seq in K. rewrite Nat.sub_0_r, NT, app_nth1 by lia. reflexivity. }
      apply Q; assumption. }
    rewrite P. split.
    + intros [-> ->]. reflexivity.
    + intros E. assert (BI : blocks n_q (M - 1) xi) by (split; assumption).
      apply (app_split ((M - 1) * n_q)) in E; [|apply tl_len; exact B].
      rewrite firstn_app, skipn_app, (blocks_concat_length _ _ _ BI), Nat.sub_diag, firstn_O, app_nil_r in E.
      rewrite firstn_all2, skipn_all2 in E by (rewrite (blocks_concat_length _ _ _ BI); lia). cbn in E. destruct E as [E1 E2].
      split; [exact E2|]. rewrite <- (cut_blocks n_q (M - 1) xi BI), E1. apply cut_blocks. exact BT.
  - intros qs a u lam p B L. cbn [fd_g_restr]. rewrite ok_holds. apply I; assumption.
Qed.
End Kinds.

Lemma g_q_refuted n_q M LM : (0 < n_q)%nat -> (0 < M)%nat -> (M * n_q / 2 <> n_q)%nat -> (M * n_q <> 1)%nat ->
  (forall args, length (LM args) = n_q) ->
  exists d, function_dynamic_setup LM "g_q" n_q 0 M = Ok d /\
  forall qs xd u lam p, blocks n_q M qs -> length xd = (M * n_q)%nat -> fd_f_restr d (concat qs) xd u lam p = Err RuntimeError.
Proof.
  intros Hn HM HD H1 HL. eexists. split; [reflexivity|]. intros qs xd u lam p B L. cbn [fd_f_restr].
  unfold expand_G_cas, expand_F_cas, cas_sub. rewrite (blocks_concat_length _ _ _ B).
  set (b := skipn (M * n_q / 2) (concat qs) ++ LM (get_x_divisions (concat qs) M ++ [u; p])).
  assert (LB : length b = (M * n_q - M * n_q / 2 + n_q)%nat).
  { unfold b. rewrite app_length, skipn_length, HL, (blocks_concat_length _ _ _ B). reflexivity. }
  assert (LE : (M * n_q / 2 <= M * n_q)%nat) by (apply Nat.div_le_upper_bound; lia).
  assert (ND : length b <> length xd) by (rewrite LB, L; lia).
  destruct (Nat.eqb_spec (length xd) (length b)); [congruence|].
  assert (NB : length b <> 1%nat).
  { rewrite LB. pose proof (Nat.div_lt (M * n_q) 2). assert (0 < M * n_q)%nat by (apply Nat.mul_pos_pos; assumption). lia. }
  destruct xd as [|x [|y xd]]; [|cbn in L; lia|].
  - destruct b as [|z [|w b]]; [reflexivity|cbn in NB; lia|reflexivity].
  - destruct b as [|z [|w b]]; [reflexivity|cbn in NB; lia|reflexivity].
Qed.

(** When a function is accepted at all. *)
Lemma kinds_accepted LM kind n_q n_lambdas order :
  (exists d, function_dynamic_setup LM kind n_q n_lambdas order = Ok d) <->
  n_lambdas = 0%nat /\ In kind ["f_x"%string; "g_q"%string; "f_x_impl"%string; "g_q_impl"%string].
Proof.
  unfold function_dynamic_setup. destruct (Nat.eqb_spec n_lambdas 0) as [E|E]; cbn [negb].
  - cbn [In]. destruct (String.eqb_spec kind "f_x") as [->|N1]; [split; [auto|eauto]|].
    destruct (String.eqb_spec kind "g_q") as [->|N2]; [split; [auto|eauto]|].
    destruct (String.eqb_spec kind "f_x_impl") as [->|N3]; [split; [auto|eauto]|].
    destruct (String.eqb_spec kind "g_q_impl") as [->|N4]; [split; [auto 6|eauto]|].
    split; [intros [d F]; discriminate|intuition congruence].
  - split; [intros [d F]; discriminate|tauto].
Qed.
Lemma kinds_refused LM kind n_q n_lambdas order e :
  function_dynamic_setup LM kind n_q n_lambdas order = Err e -> e = NotImplementedError.
Proof.
  unfold function_dynamic_setup. destruct (negb _); [congruence|]. repeat (destruct (String.eqb _ _); [discriminate|]). congruence.
Qed.
