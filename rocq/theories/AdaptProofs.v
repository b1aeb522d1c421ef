(** New structures, points to add and the refinement loop. *)
From Coq Require Import String ZArith Zpower.
From Coquelicot Require Import Coquelicot.
From Verif Require Import Prelude PreludeFacts Poly PolyFacts PolyInterp Mat MatFacts PwModel PwFacts PwSpec PwInterpModel PwInterpSpec PsModel PwInterpProofs
  PsBaryProofs UtilModel BuTdModel PhModel AnalysisModel AnalysisPhProofs AdaptModel AdaptSpec.
Open Scope R_scope.
Open Scope vec_scope.
Open Scope list_scope.

Lemma ceil_div_spec a b : (0 < b)%Z -> ((ceil_div a b - 1) * b < a <= ceil_div a b * b)%Z.
Proof.
  intros H. unfold ceil_div. pose proof (Z.div_mod (- a) b ltac:(lia)) as E. pose proof (Z.mod_pos_bound (- a) b H) as B. nia.
Qed.
Lemma total_repeat c n : total (repeat c n) = (c * Z.of_nat n)%Z.
Proof. induction n as [|n IH]; [cbn; lia|]. cbn [repeat]. unfold total in *. cbn [fold_right]. rewrite IH. lia. Qed.
Lemma total_app a b : total (a ++ b) = (total a + total b)%Z.
Proof. induction a as [|x a IH]; [reflexivity|]. unfold total in *. cbn [app fold_right]. rewrite IH. lia. Qed.
Lemma zsum_total l : zsum l = total l. Proof. reflexivity. Qed.

Lemma split_whole min_p max_p n a b : (1 <= max_p)%Z -> (n <= max_p)%Z -> split_of min_p max_p n a b [b] [n].
Proof.
  intros HM H. unfold split_of. cbn [length]. repeat split; try lia; try reflexivity.
  - intros i Hi. replace i with 0%nat by lia. unfold vnth. cbn. field.
  - cbn. lia.
Qed.
Lemma split_divided min_p max_p n a b : (1 <= max_p)%Z -> (max_p < n)%Z ->
  let div_n := ceil_div n max_p in
  split_of min_p max_p n a b (skipn 1 (linspace a b (Z.to_nat div_n + 1))) (repeat (Z.max (ceil_div n div_n) min_p) (Z.to_nat div_n)).
Proof.
  intros HM H div_n. pose proof (ceil_div_spec n max_p ltac:(lia)) as B. fold div_n in B.
  assert (D : (2 <= div_n)%Z) by nia.
  pose proof (ceil_div_spec n div_n ltac:(lia)) as C. set (c := ceil_div n div_n) in *.
  set (d := Z.to_nat div_n). assert (Ed : Z.of_nat d = div_n) by lia.
  unfold split_of. cbv zeta. rewrite repeat_length. split; [lia|]. split; [rewrite skipn_length, linspace_length; lia|].
  split.
  { intros i Hi. rewrite vnth_skipn, vnth_linspace by lia. replace (d + 1 - 1)%nat with d by lia. now rewrite (Nat.add_comm 1 i). }
  rewrite total_repeat. split; [rewrite Ed; nia|]. split; [lia|]. intros _. exists (Z.max c min_p).
  split; [reflexivity|]. rewrite Ed. split; [exact B|]. split; [lia|].
  destruct (Z.max_spec c min_p) as [[_ ->]|[_ ->]]; [now left|right; exact C].
Qed.

Lemma split_segments_ok min_p max_p ns T : (1 <= max_p)%Z -> length T = (length ns + 1)%nat ->
  exists kss pss, split_segments min_p max_p ns T = Ok (concat kss, concat pss) /\ length kss = length ns /\ length pss = length ns /\
    forall i, (i < length ns)%nat -> split_of min_p max_p (nth i ns 0%Z) (vnth T i) (vnth T (i + 1)) (nth i kss []) (nth i pss []).
Proof.
  intros HM. revert T. induction ns as [|n ns IH]; intros T L.
  - exists [], []. split; [reflexivity|]. split; [reflexivity|]. split; [reflexivity|]. intros i Hi. cbn in Hi. lia.
  - destruct T as [|a [|b T]]; cbn [length] in L; try lia.
    destruct (IH (b :: T)) as (kss & pss & E & L1 & L2 & H); [cbn [length]; lia|].
    cbn [split_segments]. rewrite E. cbn [rbind].
    destruct (Z.leb_spec n max_p) as [Hn|Hn].
    + exists ([b] :: kss), ([n] :: pss). split; [reflexivity|]. split; [cbn; lia|]. split; [cbn; lia|].
      intros [|i] Hi; [now apply split_whole|]. cbn [length] in Hi. apply (H i). lia.
    + eexists (_ :: kss), (_ :: pss). split; [cbn [concat]; reflexivity|]. split; [cbn; lia|]. split; [cbn; lia|].
      intros [|i] Hi; [now apply split_divided|]. cbn [length] in Hi. apply (H i). lia.
Qed.

Lemma split_last min_p max_p n a b ks ps : split_of min_p max_p n a b ks ps -> last ks a = b.
Proof.
  intros (H1 & H2 & H3 & _). destruct (Nat.eq_dec (length ks) 0) as [E|E]; [lia|].
  rewrite (last_nth_length ks) by (destruct ks; [cbn in E; lia|discriminate]).
  rewrite (nth_indep _ a 0) by lia. fold (vnth ks (length ks - 1)). rewrite H3 by lia.
  replace (length ks - 1 + 1)%nat with (length ps) by lia. field. apply not_0_INR. lia.
Qed.
Lemma last_app {A} (a b : list A) d : b <> [] -> last (a ++ b) d = last b d.
Proof.
  intros H. induction a as [|x a IH]; [reflexivity|]. cbn [app]. destruct (a ++ b) eqn:E; [|exact IH].
  apply app_eq_nil in E. now destruct E.
Qed.
Lemma concat_last {A} (d : A) (l : list (list A)) : l <> [] -> last l [] <> [] -> last (concat l) d = last (last l []) d.
Proof.
  induction l as [|x l IH]; [congruence|]. intros _ H. destruct l as [|y l]; [cbn; now rewrite app_nil_r|].
  change (last (x :: y :: l) []) with (last (y :: l) []) in *. rewrite <- IH by (discriminate || exact H).
  cbn [concat]. assert (N : concat (y :: l) <> []).
  { clear - H. revert y H. induction l as [|z l IH]; intros y H; [cbn in *; now rewrite app_nil_r|].
    change (last (y :: z :: l) []) with (last (z :: l) []) in H. cbn [concat]. intros E. apply app_eq_nil in E. now apply (IH z H). }
  cbn [concat] in N. now rewrite last_app by exact N.
Qed.

(** ** Structure of the result *)
Theorem struct_ok min_p max_p p add T : (1 <= max_p)%Z -> length add = length p -> length T = (length p + 1)%nat -> p <> [] ->
  exists knots ps kss pss, calc_new_struct min_p max_p p add T = Ok (knots, ps) /\
    knots ++ [last T 0] = concat kss /\ ps = concat pss /\ length kss = length p /\ length pss = length p /\
    forall i, (i < length p)%nat -> split_of min_p max_p (nth i p 0 + nth i add 0)%Z (vnth T i) (vnth T (i + 1)) (nth i kss []) (nth i pss []).
Proof.
  intros HM LA LT N0. unfold calc_new_struct. rewrite LA, Nat.eqb_refl. cbn [negb].
  change 0%Z with (Z.of_nat 0) at 1. rewrite (pyget_nat T 0 0) by lia. cbn [rbind].
  destruct (split_segments_ok min_p max_p (map2 Z.add p add) T HM) as (kss & pss & E & L1 & L2 & H); [rewrite map2_length; lia|].
  rewrite E. cbn [rbind]. rewrite map2_length in *. replace (Nat.min (length p) (length add)) with (length p) in * by lia.
  exists (butlastn 1 (concat kss)), (concat pss), kss, pss. split; [reflexivity|].
  assert (H' : forall i, (i < length p)%nat -> split_of min_p max_p (nth i p 0 + nth i add 0)%Z (vnth T i) (vnth T (i + 1)) (nth i kss []) (nth i pss [])).
  { intros i Hi. specialize (H i Hi). rewrite (PreludeFacts.nth_map2 Z.add p add i 0%Z 0%Z) in H by lia. exact H. }
  split; [|auto].
  assert (NP : (1 <= length p)%nat) by (destruct p; [congruence|cbn; lia]).
  assert (KL : last kss [] = nth (length p - 1) kss []).
  { rewrite (last_nth_length kss) by (destruct kss; [cbn in L1; lia|discriminate]). now rewrite L1. }
  pose proof (H' (length p - 1)%nat ltac:(lia)) as SL. rewrite <- KL in SL.
  assert (NL : last kss [] <> []).
  { destruct SL as (A & B & _). intros C. rewrite C in B. cbn in B. lia. }
  assert (CL : last (concat kss) 0 = last T 0).
  { rewrite concat_last; [| |exact NL]; [|destruct kss; [cbn in L1; lia|discriminate]].
    transitivity (last (last kss []) (vnth T (length p - 1))).
    - rewrite !(last_nth_length (last kss [])) by exact NL. apply nth_indep. destruct (last kss []); [congruence|cbn; lia].
    - rewrite (split_last _ _ _ _ _ _ _ SL). unfold vnth. replace (length p - 1 + 1)%nat with (length T - 1)%nat by lia.
      symmetry. apply last_nth_length. intros ->. cbn in LT. lia. }
  assert (NC : concat kss <> []).
  { pose proof (H' 0%nat ltac:(lia)) as (A & B & _). destruct kss as [|k kss]; [cbn in L1; lia|]. cbn [nth] in B. intros C. cbn [concat] in C. apply app_eq_nil in C. destruct C as [C _]. subst k. cbn [length] in B. lia. }
  rewrite <- CL. unfold butlastn. cbn [Nat.eqb]. symmetry. etransitivity; [apply (app_removelast_last 0 NC)|]. f_equal.
  rewrite removelast_firstn_len. f_equal. lia.
Qed.

(** ** Consequences *)
Lemma incf_app a ks l : increasing_from a ks -> increasing_from (last ks a) l -> increasing_from a (ks ++ l).
Proof.
  revert a. induction ks as [|k ks IH]; intros a; [auto|]. cbn [increasing_from app]. intros [A B] C. split; [exact A|].
  apply IH; [exact B|]. destruct ks as [|k' ks]; [exact C|]. rewrite (last_nth_length (k' :: ks)) by discriminate.
  rewrite (nth_indep _ k a) by (cbn; lia). rewrite <- (last_nth_length (k' :: ks)) by discriminate. exact C.
Qed.
Lemma from_increasing a l : increasing_from a l -> increasing (a :: l).
Proof.
  revert a. induction l as [|b l IH]; intros a; [intros _ i j Hij; cbn in Hij; lia|]. cbn [increasing_from]. intros [A B].
  specialize (IH b B). intros [|i] [|j] Hij; try lia.
  - unfold vnth. cbn [nth]. destruct j as [|j]; [exact A|]. pose proof (IH 0%nat (S j)) as C. unfold vnth in C. cbn [nth] in C. apply Rlt_trans with b; [exact A|]. apply C. cbn [length] in *. lia.
  - apply (IH i j). cbn [length] in *. lia.
Qed.
Lemma to_from a l : increasing (a :: l) -> increasing_from a l.
Proof.
  revert a. induction l as [|b l IH]; intros a H; [exact I|]. split.
  - apply (H 0%nat 1%nat). cbn. lia.
  - apply IH. intros i j Hij. apply (H (S i) (S j)). cbn [length] in *. lia.
Qed.
Lemma split_increasing min_p max_p n a b ks ps : a < b -> split_of min_p max_p n a b ks ps -> increasing_from a ks.
Proof.
  intros AB (H1 & H2 & H3 & _). apply to_from. assert (P : 0 < INR (length ps)) by (apply lt_0_INR; lia).
  assert (Q : 0 < (b - a) / INR (length ps)) by (apply Rdiv_lt_0_compat; lra).
  assert (V : forall i, (i <= length ks)%nat -> vnth (a :: ks) i = a + INR i * ((b - a) / INR (length ps))).
  { intros [|i] Hi; [unfold vnth; cbn [nth INR]; ring|]. change (vnth (a :: ks) (S i)) with (vnth ks i). rewrite H3 by lia. now rewrite Nat.add_1_r. }
  intros i j Hij. cbn [length] in Hij. rewrite !V by lia. assert (INR i < INR j) by (apply lt_INR; lia). nra.
Qed.

Section Struct.
Variables (min_p max_p : Z) (p add : list Z) (T : vec) (knots : vec) (ps : list Z).
Hypothesis HM : (1 <= max_p)%Z.
Hypothesis LA : length add = length p.
Hypothesis LT : length T = (length p + 1)%nat.
Hypothesis NP : p <> [].
Hypothesis E : calc_new_struct min_p max_p p add T = Ok (knots, ps).

Lemma struct_blocks : exists kss pss, knots ++ [last T 0] = concat kss /\ ps = concat pss /\ length kss = length p /\ length pss = length p /\
    forall i, (i < length p)%nat -> split_of min_p max_p (nth i p 0 + nth i add 0)%Z (vnth T i) (vnth T (i + 1)) (nth i kss []) (nth i pss []).
Proof.
  destruct (struct_ok min_p max_p p add T HM LA LT NP) as (k' & p' & kss & pss & E' & H). rewrite E in E'. injection E' as <- <-. eauto.
Qed.
(** One knot less than segments. *)
Theorem struct_knots : (length knots + 1)%nat = length ps.
Proof.
  destruct struct_blocks as (kss & pss & E1 & E2 & L1 & L2 & H).
  apply (f_equal (@length R)) in E1. rewrite app_length in E1. cbn [length] in E1. rewrite E1, E2.
  assert (G : forall i, (i < length kss)%nat -> length (nth i kss []) = length (nth i pss [])).
  { intros i Hi. destruct (H i ltac:(lia)) as (_ & A & _). exact A. }
  assert (L : length kss = length pss) by lia. clear - G L. revert pss G L.
  induction kss as [|k kss IH]; intros [|q pss] G L; try discriminate; [reflexivity|]. cbn [concat]. rewrite !app_length.
  pose proof (G 0%nat ltac:(cbn; lia)) as G0. cbn [nth] in G0. rewrite G0, (IH pss); [reflexivity| |now injection L].
  intros i Hi. apply (G (S i)). cbn. lia.
Qed.
Theorem struct_max : (min_p <= max_p)%Z -> Forall (fun q => (q <= max_p)%Z) ps.
Proof.
  intros HMM. destruct struct_blocks as (kss & pss & E1 & E2 & L1 & L2 & H). rewrite E2. apply Forall_concat. apply Forall_forall.
  intros l Hl. apply (In_nth _ _ []) in Hl. destruct Hl as (i & Hi & <-). destruct (H i ltac:(lia)) as (A & _ & _ & _ & B & C).
  destruct (Z.le_gt_cases (nth i p 0 + nth i add 0)%Z max_p) as [D|D].
  - rewrite (B D). constructor; [exact D|constructor].
  - destruct (C ltac:(lia)) as (c & Er & D1 & D2 & D3). apply Forall_forall. intros x Hx. rewrite Er in Hx. apply repeat_spec in Hx. subst x.
    destruct D3 as [->|D3]; [exact HMM|]. nia.
Qed.
Theorem struct_total : (total p + total add <= total ps)%Z.
Proof.
  destruct struct_blocks as (kss & pss & E1 & E2 & L1 & L2 & H). rewrite E2.
  assert (G : forall i, (i < length p)%nat -> (nth i p 0 + nth i add 0 <= total (nth i pss []))%Z).
  { intros i Hi. now destruct (H i Hi) as (_ & _ & _ & A & _). }
  clear - G L2 LA. revert add pss LA L2 G. induction p as [|a p' IH]; intros add' pss LA L2 G.
  { destruct add'; [|discriminate]. destruct pss; [|discriminate]. cbn. lia. }
  destruct add' as [|b add']; [discriminate|]. destruct pss as [|q pss]; [discriminate|].
  cbn [concat]. rewrite total_app. pose proof (G 0%nat ltac:(cbn; lia)) as G0. cbn [nth] in G0.
  specialize (IH add' pss ltac:(now injection LA) ltac:(now injection L2)).
  assert (total p' + total add' <= total (concat pss))%Z.
  { apply IH. intros i Hi. apply (G (S i)). cbn. lia. }
  unfold total in *. cbn [fold_right] in *. lia.
Qed.
(** Old knots are kept. *)
Theorem struct_kept t : In t T -> In t (vnth T 0 :: knots ++ [last T 0]).
Proof.
  destruct struct_blocks as (kss & pss & E1 & E2 & L1 & L2 & H). rewrite E1. intros Ht.
  apply (In_nth _ _ 0) in Ht. destruct Ht as (i & Hi & <-). destruct i as [|i]; [now left|]. right.
  apply in_concat. exists (nth i kss []). split; [apply nth_In; lia|]. pose proof (H i ltac:(lia)) as S. pose proof (split_last _ _ _ _ _ _ _ S) as L.
  destruct S as (A & B & _). rewrite Nat.add_1_r in L. fold (vnth T (S i)). rewrite <- L.
  rewrite last_nth_length by (intros C; rewrite C in B; cbn in B; lia). apply nth_In. lia.
Qed.
Theorem struct_increasing : increasing T -> increasing (vnth T 0 :: knots ++ [last T 0]).
Proof.
  destruct struct_blocks as (kss & pss & E1 & E2 & L1 & L2 & H). rewrite E1. intros IT. apply from_increasing.
  assert (G : forall i, (i < length kss)%nat -> increasing_from (vnth T i) (nth i kss []) /\ last (nth i kss []) (vnth T i) = vnth T (i + 1)).
  { intros i Hi. pose proof (H i ltac:(lia)) as S. split; [|eapply split_last; exact S]. eapply split_increasing; [|exact S]. apply IT. lia. }
  clear - G. assert (W : forall k kss, (forall i, (i < length kss)%nat -> increasing_from (vnth T (k + i)) (nth i kss []) /\ last (nth i kss []) (vnth T (k + i)) = vnth T (k + i + 1)) ->
    increasing_from (vnth T k) (concat kss)).
  { clear. intros k kss. revert k. induction kss as [|l kss IH]; intros k G; [exact I|]. cbn [concat].
    destruct (G 0%nat ltac:(cbn; lia)) as [A B]. rewrite !Nat.add_0_r in A, B. cbn [nth] in A, B. apply incf_app; [exact A|]. rewrite B. apply IH.
    intros i Hi. destruct (G (S i) ltac:(cbn; lia)) as [C D]. cbn [nth] in C, D. replace (k + 1 + i)%nat with (k + S i)%nat by lia. auto. }
  apply (W 0%nat kss). exact G.
Qed.
End Struct.

Theorem struct_shape_error min_p max_p p add T : length add <> length p -> calc_new_struct min_p max_p p add T = Err AssertionError.
Proof. intros H. unfold calc_new_struct. replace (_ =? _)%nat with false; [reflexivity|]. symmetry. apply Nat.eqb_neq. auto. Qed.
Theorem struct_min_refuted : calc_new_struct 3 25 [2; 40]%Z [0; 0]%Z [0; 1; 2] = Ok ([1; 1 + INR 1 * ((2 - 1) / INR 2)], [2; 20; 20]%Z).
Proof. reflexivity. Qed.
Theorem struct_negative_refuted : calc_new_struct 3 25 [3; 10]%Z [-4; 1]%Z [0; 1; 2] = Ok ([1], [-1; 11]%Z).
Proof. reflexivity. Qed.
Theorem struct_bounds_refuted : exists knots, calc_new_struct 30 25 [26]%Z [0]%Z [0; 1] = Ok (knots, [30; 30]%Z).
Proof. eexists. reflexivity. Qed.

(** ** Points to add *)
Lemma rceil_spec x : IZR (rceil x) - 1 < x <= IZR (rceil x).
Proof. unfold rceil. destruct (archimed (- x)) as [A B]. rewrite minus_IZR. lra. Qed.
Theorem add_point_ok undef epsilon m_err p : 0 < epsilon -> 0 < m_err -> (2 <= p)%Z ->
  let a := add_point undef epsilon m_err p in
  powerRZ (IZR p) (a - 1) * epsilon < m_err <= powerRZ (IZR p) a * epsilon.
Proof.
  intros He Hm Hp a. assert (P2 : 2 <= IZR p) by now apply IZR_le.
  assert (Q : 0 < m_err / epsilon) by now apply Rdiv_lt_0_compat.
  assert (LP : 0 < ln (IZR p)) by (rewrite <- ln_1; apply ln_increasing; lra).
  assert (Ea : a = rceil (log_base (m_err / epsilon) (IZR p))).
  { unfold a, add_point. destruct (Rlt_dec 0 (m_err / epsilon)); [|contradiction]. destruct (Z.leb_spec 2 p); [reflexivity|lia]. }
  pose proof (rceil_spec (log_base (m_err / epsilon) (IZR p))) as [B C]. rewrite <- Ea in B, C. unfold log_base in B, C.
  assert (PW : forall z, powerRZ (IZR p) z = exp (IZR z * ln (IZR p))).
  { intros z. rewrite powerRZ_Rpower by lra. reflexivity. }
  assert (EQ : m_err = exp (ln (m_err / epsilon)) * epsilon) by (rewrite exp_ln by exact Q; field; lra).
  rewrite !PW, minus_IZR. rewrite EQ at 1 2.
  assert (L : ln (m_err / epsilon) / ln (IZR p) * ln (IZR p) = ln (m_err / epsilon)) by (field; lra).
  split.
  - apply Rmult_lt_compat_r; [exact He|]. apply exp_increasing. nra.
  - apply Rmult_le_compat_r; [lra|]. destruct (Rle_lt_or_eq_dec _ _ C) as [D|D].
    + left. apply exp_increasing. nra.
    + right. f_equal. rewrite <- D. lra.
Qed.
(** A segment with a small error loses its points. *)
Theorem add_point_refuted undef epsilon : 0 < epsilon -> add_point undef epsilon (epsilon / 81) 3 = (-4)%Z.
Proof.
  intros He. assert (P : 0 < epsilon / 81) by lra. pose proof (add_point_ok undef epsilon (epsilon / 81) 3 He P ltac:(lia)) as H. cbv zeta in H.
  set (a := add_point undef epsilon (epsilon / 81) 3) in *. clearbody a.
  assert (M : forall x y : Z, (x <= y)%Z -> powerRZ 3 x <= powerRZ 3 y).
  { intros x y Hxy. rewrite !powerRZ_Rpower by lra. apply Rle_Rpower; [lra|]. now apply IZR_le. }
  destruct H as [H1 H2].
  assert (V5 : powerRZ 3 (-5) = / 243) by (change (powerRZ 3 (-5)) with (/ 3 ^ 5); f_equal; ring). assert (V4 : powerRZ 3 (-4) = / 81) by (change (powerRZ 3 (-4)) with (/ 3 ^ 4); f_equal; ring).
  assert ((-4 <= a)%Z).
  { destruct (Z.le_gt_cases (-4) a) as [A|A]; [exact A|]. exfalso. pose proof (M a (-5)%Z ltac:(lia)) as C. rewrite V5 in C. nra. }
  assert ((a <= -4)%Z).
  { destruct (Z.le_gt_cases a (-4)) as [A|A]; [exact A|]. exfalso. pose proof (M (-4)%Z (a - 1)%Z ltac:(lia)) as C. rewrite V4 in C. nra. }
  lia.
Qed.

Lemma npmax_is_max l : l <> [] -> is_max l (npmax l).
Proof.
  destruct l as [|a l]; [congruence|]. intros _. split; [|apply npmax_ge]. unfold npmax. induction l as [|b l IH]; cbn [fold_right].
  - now left.
  - unfold Rmax at 1. destruct (Rle_dec b (fold_right Rmax a l)); [|right; now left]. destruct IH as [IH|IH]; [left; exact IH|right; now right].
Qed.
Lemma is_max_unique l x y : is_max l x -> is_max l y -> x = y.
Proof. intros [A B] [C D]. apply Rle_antisym; [apply D|apply B]; assumption. Qed.

(** ** The loop *)
Section Loop.
Variable undef : R -> Z -> Z.
Context {result : Type}.
Variable problem : nat -> Z -> vec -> list Z -> Res result.
Variable res_t_knot_ext : result -> vec.
Variable res_point_structure : result -> list Z.
Variable errors : result -> Res vec.
Variables (min_p max_p max_coll_points : Z) (epsilon : R).
Notation refine := (refine undef problem res_t_knot_ext res_point_structure errors min_p max_p max_coll_points epsilon).
Notation history := (history undef problem res_t_knot_ext res_point_structure errors min_p max_p max_coll_points epsilon).
Notation next := (next undef res_t_knot_ext res_point_structure min_p max_p epsilon).
Notation goes_on := (goes_on undef res_t_knot_ext res_point_structure min_p max_p max_coll_points epsilon).
Notation stops := (stops undef res_t_knot_ext res_point_structure min_p max_p max_coll_points epsilon).
Notation happened := (happened problem errors).

Lemma history_cons k iter a tr : (length tr <= k)%nat -> happened iter a -> 
  (forall b tr', tr = b :: tr' -> goes_on a /\ next a (att_knots b) (att_p b)) ->
  (tr = [] -> (0 < k)%nat -> stops a) ->
  (tr <> [] -> history k (S iter) (att_knots (hd a tr)) (att_p (hd a tr)) tr) ->
  history (S k) iter (att_knots a) (att_p a) (a :: tr).
Proof.
  intros HL HA HN HE HT. unfold AdaptSpec.history. split; [cbn; lia|]. split; [intros a0 tr' H; injection H as <- _; auto|]. split.
  { intros [|i] d Hi; [cbn; now rewrite Nat.add_0_r|]. cbn [length] in Hi. destruct tr as [|b tr]; [cbn in Hi; lia|].
    destruct (HT ltac:(discriminate)) as (_ & _ & H & _). cbn [nth]. rewrite Nat.add_succ_r. rewrite <- Nat.add_succ_l. apply H. lia. }
  split.
  { intros [|i] d Hi; destruct tr as [|b tr]; cbn [length] in Hi; try lia.
    - cbn [nth Nat.add]. now apply (HN b tr).
    - destruct (HT ltac:(discriminate)) as (_ & _ & _ & H & _). cbn [nth Nat.add]. apply (H i d). cbn [length]. lia. }
  intros d Hk _. destruct tr as [|b tr].
  - cbn [last]. apply HE; [reflexivity|]. cbn in Hk. lia.
  - change (last (a :: b :: tr) d) with (last (b :: tr) d). destruct (HT ltac:(discriminate)) as (_ & _ & _ & _ & H). apply H; [|discriminate]. cbn [length] in *. lia.
Qed.

Theorem refine_history silent k : forall iter knots p run0 run tr, refine silent k iter knots p run0 = Ok (run, tr) ->
  run = run0 ++ results tr /\ history k iter knots p tr /\ ((0 < k)%nat -> tr <> []).
Proof.
  induction k as [|k IH]; intros iter knots p run0 run tr.
  { cbn. intros H. injection H as <- <-. split; [now rewrite app_nil_r|]. split; [|lia]. unfold AdaptSpec.history. cbn [length]. repeat split; intros; try lia; congruence. }
  cbn [AdaptModel.refine]. destruct silent; cbn [negb]; [|discriminate]. destruct (problem iter (zsum p) knots p) as [r|e] eqn:EP.
  - destruct (errors r) as [er|] eqn:EE; [|discriminate]. cbn [rbind]. destruct er as [|e0 er']; [discriminate|]. set (er := e0 :: er') in *.
    assert (NE : er <> []) by discriminate. pose proof (npmax_is_max er NE) as MX. clearbody er.
    set (att := Solved knots p r er). assert (HA : happened iter att) by (split; assumption).
    destruct (Rlt_dec (npmax er) epsilon) as [LT|GE].
    + intros H. injection H as <- <-. split; [reflexivity|]. split; [|discriminate].
      apply (history_cons k iter att []); [cbn; lia|exact HA|discriminate| |congruence]. intros _ _. exists (npmax er). split; [exact MX|]. now left.
    + destruct (calc_new_struct min_p max_p p (add_points undef epsilon er (res_point_structure r)) (res_t_knot_ext r)) as [[k' p']|] eqn:ES; [|discriminate].
      cbn [rbind]. destruct (Z.ltb_spec max_coll_points (zsum p')) as [GT|LE].
      * intros H. injection H as <- <-. split; [reflexivity|]. split; [|discriminate].
        apply (history_cons k iter att []); [cbn; lia|exact HA|discriminate| |congruence]. intros _ _. exists (npmax er). split; [exact MX|]. right. exists k', p'. split; [exact ES|exact GT].
      * destruct (refine true k (S iter) k' p' (run0 ++ [r])) as [[run' tr']|] eqn:ER; [|discriminate]. cbn [rbind]. intros H. injection H as <- <-.
        destruct (IH _ _ _ _ _ _ ER) as (A & B & C). split; [rewrite A, <- app_assoc; reflexivity|]. split; [|discriminate].
        assert (G : goes_on att) by (exists (npmax er), k', p'; split; [exact MX|split; [lra|split; [exact ES|exact LE]]]).
        pose proof B as (B1 & B2 & _).
        apply (history_cons k iter att tr'); [exact B1|exact HA| | |].
        -- intros b tr2 ->. specialize (B2 b tr2 eq_refl) as [-> ->]. split; [exact G|]. exact ES.
        -- intros Et Hk. now apply C in Hk.
        -- intros N. destruct tr' as [|b tr2]; [congruence|]. cbn [hd]. specialize (B2 b tr2 eq_refl) as [-> ->]. exact B.
  - destruct e; try discriminate.
    destruct (refine true k (S iter) knots (map (Z.add 1) p) run0) as [[run' tr']|] eqn:ER; [|discriminate]. cbn [rbind]. intros H. injection H as <- <-.
    destruct (IH _ _ _ _ _ _ ER) as (A & B & C). split; [exact A|]. split; [|discriminate].
    pose proof B as (B1 & B2 & _). apply (history_cons k iter (Failed knots p) tr'); [exact B1|exact EP| | |].
    + intros b tr2 ->. specialize (B2 b tr2 eq_refl) as [E1 E2]. rewrite E1, E2. split; [exact I|]. cbn. split; reflexivity.
    + intros Et Hk. now apply C in Hk.
    + intros N. destruct tr' as [|b tr2]; [congruence|]. cbn [hd]. specialize (B2 b tr2 eq_refl) as [-> ->]. exact B.
Qed.

(** It returns. *)
Theorem refine_returns k : (1 <= max_p)%Z ->
  (forall i N knots p e, problem i N knots p = Err e -> e = RuntimeError) ->
  (forall i knots p r, p <> [] -> problem i (total p) knots p = Ok r ->
     length (res_t_knot_ext r) = (length p + 1)%nat /\ length (res_point_structure r) = length p /\
     exists er, errors r = Ok er /\ length er = length p) ->
  forall iter knots p run0, p <> [] -> exists x, refine true k iter knots p run0 = Ok x.
Proof.
  intros HM HP HR. induction k as [|k IH]; intros iter knots p run0 NP; [eexists; reflexivity|].
  cbn [AdaptModel.refine negb]. destruct (problem iter (zsum p) knots p) as [r|e] eqn:EP.
  - destruct (HR iter knots p r NP EP) as (LT & LP & er & Ee & Le). rewrite Ee. cbn [rbind].
    destruct er as [|e0 er']; [destruct p; [congruence|discriminate]|]. set (er := e0 :: er') in *. clearbody er.
    destruct (Rlt_dec (npmax er) epsilon); [eexists; reflexivity|].
    assert (LA : length (add_points undef epsilon er (res_point_structure r)) = length p) by (unfold add_points; rewrite map2_length; lia).
    destruct (struct_ok min_p max_p p _ _ HM LA LT NP) as (k' & p' & _ & _ & ES & _). rewrite ES. cbn [rbind].
    destruct (max_coll_points <? zsum p')%Z; [eexists; reflexivity|].
    assert (NP' : p' <> []).
    { intros C. pose proof (struct_knots min_p max_p p _ _ k' p' HM LA LT NP ES) as L. rewrite C in L. cbn in L. lia. }
    destruct (IH (S iter) k' p' (run0 ++ [r]) NP') as ([run tr] & E). rewrite E. eexists. reflexivity.
  - rewrite (HP _ _ _ _ _ EP). assert (NP' : map (Z.add 1) p <> []) by (destruct p; [congruence|discriminate]).
    destruct (IH (S iter) knots (map (Z.add 1) p) run0 NP') as ([run tr] & E). rewrite E. eexists. reflexivity.
Qed.
(** Other exceptions are not caught. *)
Theorem refine_raises k iter knots p run0 e : problem iter (total p) knots p = Err e -> e <> RuntimeError ->
  refine true (S k) iter knots p run0 = Err e.
Proof. intros H N. cbn [AdaptModel.refine negb]. rewrite zsum_total, H. destruct e; congruence. Qed.
Theorem refine_verbose k iter knots p run0 : refine false (S k) iter knots p run0 = Err AttributeError.
Proof. reflexivity. Qed.
(** When every attempt fails nothing is returned. *)
Theorem refine_fails k : (forall i N knots p, problem i N knots p = Err RuntimeError) ->
  forall iter knots p run0, exists tr, refine true k iter knots p run0 = Ok (run0, tr) /\ length tr = k /\
    forall i d, (i < k)%nat -> nth i tr d = Failed knots (map (Z.add (Z.of_nat i)) p).
Proof.
  intros HP. induction k as [|k IH]; intros iter knots p run0; [exists []; cbn; repeat split; intros; lia|].
  cbn [AdaptModel.refine negb]. rewrite HP. destruct (IH (S iter) knots (map (Z.add 1) p) run0) as (tr & E & L & H). rewrite E. cbn [rbind].
  eexists. split; [reflexivity|]. split; [cbn; lia|]. intros [|i] d Hi; cbn [nth].
  - f_equal. rewrite <- (map_id p) at 1. now apply map_ext.
  - rewrite H by lia. f_equal. rewrite map_map. apply map_ext. intros z. lia.
Qed.
End Loop.
