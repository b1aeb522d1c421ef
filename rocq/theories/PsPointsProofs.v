(** The point sets of the schemes (C20, C21). *)
From Coq Require Import String Sorting.Sorted FinFun Classical_Prop Rtrigo_facts.
From Verif Require Import Prelude PreludeFacts Poly PolyFacts PolyInterp Mat MatFacts
  PwInterpModel PsModel PsSpec JacobiFacts.
Open Scope R_scope.
Open Scope list_scope.

(** ** Roots *)
Lemma poly_eq_except c d r : (forall x, x <> r -> peval c x = peval d x) -> forall x, peval c x = peval d x.
Proof.
  intros H. set (n := Nat.max (length c) (length d)).
  apply (poly_unique (map (fun i => r + 1 + INR i) (seq 0 n))).
  - apply FinFun.Injective_map_NoDup; [|apply seq_NoDup].
    intros i j E. apply INR_eq. lra.
  - rewrite map_length, seq_length. unfold n. lia.
  - rewrite map_length, seq_length. unfold n. lia.
  - intros x I. apply in_map_iff in I. destruct I as (i & <- & _). apply H.
    assert (P := pos_INR i). lra.
Qed.

Lemma too_many_roots rs : forall c d, (forall x, peval c x = peval (pfromroots rs) x * peval d x) ->
  (length c <= length rs)%nat -> forall x, peval c x = 0.
Proof.
  induction rs as [|r rs IH]; intros c d H L x.
  - destruct c; [reflexivity|simpl in L; lia].
  - destruct (poly_div_root c r) as (q & Lq & Q).
    assert (E0 : peval c r = 0).
    { rewrite H, peval_pfromroots. simpl. ring. }
    rewrite Q, E0. rewrite (IH q d); [ring| |simpl in L; lia].
    intros y. rewrite <- peval_pmul. revert y.
    apply (poly_eq_except _ _ r). intros y Hy.
    assert (E := H y). rewrite Q, E0, peval_pfromroots in E. simpl in E.
    rewrite <- peval_pfromroots in E. rewrite peval_pmul.
    apply (Rmult_eq_reg_l (y - r)); [|lra]. lra.
Qed.

Lemma increasing_same_eq l : forall m, increasing l -> increasing m -> (forall x, In x l <-> In x m) -> l = m.
Proof.
  induction l as [|a l IH]; intros m Il Im E.
  - destruct m as [|b m]; [reflexivity|]. exfalso. apply (proj2 (E b)). now left.
  - destruct m as [|b m]; [exfalso; apply (proj1 (E a)); now left|].
    assert (LT : forall a l, increasing (a :: l) -> forall x, In x l -> a < x).
    { clear. intros a l I x K. destruct (In_nth _ _ 0 K) as (i & Hi & <-).
      apply (I 0%nat (S i)). simpl. lia. }
    assert (a = b).
    { destruct (proj1 (E a) (or_introl eq_refl)) as [K|K]; [now symmetry|].
      destruct (proj2 (E b) (or_introl eq_refl)) as [K'|K']; [exact K'|].
      assert (A := LT _ _ Im _ K). assert (B := LT _ _ Il _ K'). lra. }
    subst b. f_equal. apply IH.
    + now apply increasing_tl in Il.
    + now apply increasing_tl in Im.
    + intros x. split; intros K.
      * destruct (proj1 (E x) (or_intror K)) as [<-|K']; [|exact K'].
        exfalso. assert (A := LT _ _ Il _ K). lra.
      * destruct (proj2 (E x) (or_intror K)) as [<-|K']; [|exact K'].
        exfalso. assert (A := LT _ _ Im _ K). lra.
Qed.

Lemma sorted_NoDup_increasing l : StronglySorted Rle l -> NoDup l -> increasing l.
Proof.
  induction 1 as [|a l S IH F]; intros N.
  - intros i j; simpl; lia.
  - inversion N as [|? ? Na Nl]; subst. apply increasing_cons; [|now apply IH].
    intros r I. rewrite Forall_forall in F. destruct (F r I) as [K|K]; [exact K|]. now subst.
Qed.

(** A polynomial with as many distinct roots as its degree: the oracle returns
    exactly those. *)
Lemma real_roots_char rr c rs : real_roots_ok rr -> increasing rs ->
  (forall r, In r rs -> peval c r = 0) -> (length c <= S (length rs))%nat ->
  (exists x, peval c x <> 0) -> rr c = rs.
Proof.
  intros OK I Z L NZ. destruct (OK c NZ) as [S (d & Hd & E)].
  assert (A : incl rs (rr c)).
  { intros r K. destruct (in_dec Req_EM_T r (rr c)) as [|N]; [assumption|exfalso].
    assert (B := E r). rewrite (Z r K) in B.
    symmetry in B. apply Rmult_integral in B. destruct B as [B|B].
    - revert B. now apply peval_pfromroots_neq0.
    - now apply (Hd r). }
  assert (Lr : (length (rr c) <= length rs)%nat).
  { destruct (Nat.le_gt_cases (length (rr c)) (length rs)) as [|G]; [assumption|exfalso].
    destruct NZ as [x Hx]. apply Hx. apply (too_many_roots (rr c) c d E). lia. }
  assert (N := increasing_NoDup rs I).
  assert (Nr : NoDup (rr c)) by (apply (NoDup_incl_NoDup (l := rs)); assumption).
  apply increasing_same_eq.
  - now apply sorted_NoDup_increasing.
  - exact I.
  - intros x. split; intros K; [|now apply A].
    apply (NoDup_length_incl N Lr A). exact K.
Qed.

(** ** Point sets with their inner points apart *)
Definition inner_set (n : nat) (c : list R) : Prop :=
  length c = n /\ increasing c /\ Forall (fun x => -1 < x < 1) c.

Definition with_ends (l r : bool) (c : list R) : list R :=
  (if l then [-1] else []) ++ c ++ (if r then [1] else []).

Lemma with_ends_ok l r n c : inner_set n c ->
  point_set (l = true) (r = true) ((if l then 1 else 0) + n + (if r then 1 else 0)) (with_ends l r c).
Proof.
  intros (L & I & F). rewrite Forall_forall in F. unfold with_ends.
  assert (N1 : ~ In (-1) c) by (intros K; apply F in K; lra).
  assert (N2 : ~ In 1 c) by (intros K; apply F in K; lra).
  repeat split.
  - destruct l, r; simpl; rewrite ?app_length; simpl; lia.
  - assert (I2 : increasing (c ++ (if r then [1] else []))).
    { destruct r; [|now rewrite app_nil_r].
      apply increasing_snoc; [|exact I]. intros x K. apply F in K. lra. }
    destruct l; [|exact I2]. apply increasing_cons; [|exact I2].
    intros x K. apply in_app_iff in K. destruct K as [K|K]; [apply F in K; lra|].
    destruct r; [|easy]. destruct K as [<-|[]]. lra.
  - apply Forall_forall. intros x K. rewrite !in_app_iff in K.
    destruct K as [K|[K|K]].
    + destruct l; [destruct K as [<-|[]]; lra|easy].
    + apply F in K. lra.
    + destruct r; [destruct K as [<-|[]]; lra|easy].
  - intros K. rewrite !in_app_iff in K. destruct K as [K|[K|K]]; [now destruct l|easy|].
    destruct r; [destruct K as [K|[]]; lra|easy].
  - intros ->. simpl. now left.
  - intros K. rewrite !in_app_iff in K. destruct K as [K|[K|K]]; [|easy|now destruct r].
    destruct l; [destruct K as [K|[]]; lra|easy].
  - intros ->. rewrite !in_app_iff. simpl. tauto.
Qed.

Section Roots.
Variable rr : list R -> list R.
Hypothesis OK : real_roots_ok rr.

Lemma inner_from n c : inner_roots c n -> (length c <= S (length n))%nat -> (exists x, peval c x <> 0) ->
  inner_set (length n) (rr c).
Proof.
  intros [I R] L NZ. rewrite (real_roots_char rr c n OK I); auto.
  - split; [reflexivity|]. split; [exact I|]. apply Forall_forall. intros x K. now apply R.
  - intros r K. now apply R.
Qed.

Lemma jacobi_set n a b : inner_set n (rr (jacobi n a b)).
Proof.
  destruct (jacobi_inner n a b) as (rs & L & R). rewrite <- L at 1. apply inner_from.
  - exact R.
  - rewrite L. apply jacobi_length.
  - exists 1. apply jacobi_at_1_neq0.
Qed.

Lemma LG_set N : inner_set N (LG rr N).
Proof. apply jacobi_set. Qed.

Lemma legendre_deriv_neq0 n : (1 <= n)%nat -> exists x, peval (pderiv (legendre n)) x <> 0.
Proof.
  intros Hn. destruct (Classical_Prop.classic (exists x, peval (pderiv (legendre n)) x <> 0)) as [|N]; [assumption|exfalso].
  assert (Z : forall x, peval (pderiv (legendre n)) x = 0).
  { intros x. destruct (Req_EM_T (peval (pderiv (legendre n)) x) 0) as [|K]; [assumption|].
    exfalso. apply N. now exists x. }
  destruct (jacobi_inner n 0 0) as (rs & L & I & R).
  assert (K : In (vnth rs 0) rs) by (apply nth_In; lia).
  destruct (R _ K) as [B E].
  destruct (MVT_cor2 (peval (legendre n)) (peval (pderiv (legendre n))) (vnth rs 0) 1 ltac:(lra)) as (x & M & _).
  { intros y _. apply Coquelicot.Derive.is_derive_Reals. apply is_derive_peval. }
  rewrite Z in M. unfold legendre in M. rewrite E in M.
  apply (jacobi_at_1_neq0 n 0 0). lra.
Qed.

Lemma LGL_set N : (2 <= N)%nat -> exists c, LGL rr N = with_ends true true c /\ inner_set (N - 2) c.
Proof.
  intros HN. exists (rr (pderiv (legendre (N - 1)))). split; [reflexivity|].
  destruct (legendre_deriv_inner (N - 1)) as (rs & L & R); [lia|].
  replace (N - 2)%nat with (length rs) by lia. apply inner_from.
  - exact R.
  - rewrite pderiv_length. assert (J := jacobi_length (N - 1) 0 0). unfold legendre. lia.
  - apply legendre_deriv_neq0. lia.
Qed.

Lemma LGR_set N : (1 <= N)%nat -> exists c, LGR rr N = with_ends true false c /\ inner_set (N - 1) c.
Proof.
  intros HN. destruct (radau_inner N HN) as (rs & L & [I R] & Z).
  exists rs. split.
  - unfold LGR, with_ends. rewrite app_nil_r. simpl. apply real_roots_char.
    + exact OK.
    + apply increasing_cons; [|exact I]. intros r K. now apply R.
    + intros r [<-|K]; [exact Z|]. now apply R.
    + rewrite padd_length. assert (J := jacobi_length N 0 0). assert (J' := jacobi_length (N - 1) 0 0).
      unfold legendre. simpl. lia.
    + exists 1. rewrite peval_padd. unfold legendre. rewrite !jacobi_at_1, !Nat.add_0_r, !binom_n_n.
      simpl. lra.
  - split; [exact L|]. split; [exact I|]. apply Forall_forall. intros x K. now apply R.
Qed.

Lemma LGLm_set N : inner_set N (LGLm rr N).
Proof.
  destruct (LGL_set (N + 2)) as (c & E & S); [lia|]. unfold LGLm. rewrite E. unfold with_ends.
  cbn [app skipn]. unfold butlastn. cbn [Nat.eqb]. rewrite app_length. cbn [length].
  replace (length c + 1 - 1)%nat with (length c) by lia.
  rewrite firstn_app, Nat.sub_diag, firstn_all. cbn [firstn]. rewrite app_nil_r.
  now replace (N + 2 - 2)%nat with N in S by lia.
Qed.
End Roots.

(** ** Chebyshev points *)
Lemma vnth_rev l i : (i < length l)%nat -> vnth (rev l) i = vnth l (length l - 1 - i).
Proof. intros H. unfold vnth. rewrite rev_nth by exact H. f_equal. lia. Qed.

(** The symmetrisation does nothing on points that are already symmetric. *)
Lemma cheb_symm (f : nat -> R) N : (forall k, (k < N)%nat -> cos (f (N - 1 - k)%nat) = - cos (f k)) ->
  let tau := rev (map cos (map f (seq 0 N))) in
  vdivs (vsub tau (rev tau)) 2 = map (fun k => - cos (f k)) (seq 0 N).
Proof.
  intros H tau. assert (L : length tau = N) by (unfold tau; rewrite rev_length, !map_length, seq_length; reflexivity).
  assert (T : forall k, (k < N)%nat -> vnth tau k = - cos (f k)).
  { intros k Hk. unfold tau. rewrite vnth_rev by now rewrite !map_length, seq_length.
    rewrite !map_length, seq_length, map_map, vnth_map_seq by lia. apply H. exact Hk. }
  apply vec_ext.
  - rewrite vdivs_length, vsub_length, rev_length, L, map_length, seq_length. lia.
  - intros k Hk. rewrite vdivs_length, vsub_length, rev_length, L in Hk.
    rewrite Nat.min_id in Hk.
    rewrite vnth_vdivs, vnth_vsub by now rewrite rev_length.
    rewrite vnth_rev, L, !T by lia. rewrite vnth_map_seq by exact Hk. simpl.
    rewrite H by exact Hk. lra.
Qed.

Lemma CG_closed N : CG N = map (fun k => - cos (PI * (2 * INR k + 1) / INR N / 2)) (seq 0 N).
Proof.
  unfold CG. apply (cheb_symm (fun k => PI * (2 * INR k + 1) / INR N / 2)). intros k Hk.
  rewrite <- Rtrigo_facts.cos_pi_minus. f_equal.
  rewrite !minus_INR by lia. simpl INR. assert (INR N <> 0) by (apply not_0_INR; lia). field. assumption.
Qed.
Lemma CGL_closed N : (2 <= N)%nat -> CGL N = map (fun k => - cos (PI * INR k / (INR N - 1))) (seq 0 N).
Proof.
  intros HN. unfold CGL. apply (cheb_symm (fun k => PI * INR k / (INR N - 1))). intros k Hk.
  rewrite <- Rtrigo_facts.cos_pi_minus. f_equal.
  rewrite !minus_INR by lia. simpl INR.
  assert (1 < INR N) by (apply (lt_INR 1); lia). field. lra.
Qed.
Lemma CGR_closed N : CGR N = map (fun k => - cos (PI * (2 * INR k) / (2 * INR N - 1))) (seq 0 N).
Proof. unfold CGR. rewrite !map_map. reflexivity. Qed.

Lemma cheb_increasing f N : (forall k, (k < N)%nat -> 0 <= f k <= PI) ->
  (forall i j, (i < j < N)%nat -> f i < f j) ->
  increasing (map (fun k => - cos (f k)) (seq 0 N)).
Proof.
  intros B M i j Hij. rewrite map_length, seq_length in Hij.
  rewrite !vnth_map_seq by lia. simpl.
  assert (A := B i ltac:(lia)). assert (C := B j ltac:(lia)). assert (D := M i j Hij).
  assert (cos (f j) < cos (f i)) by (apply cos_decreasing_1; lra). lra.
Qed.

Lemma cheb_inner f N : (forall k, (k < N)%nat -> 0 < f k < PI) ->
  (forall i j, (i < j < N)%nat -> f i < f j) ->
  inner_set N (map (fun k => - cos (f k)) (seq 0 N)).
Proof.
  intros B M. split; [now rewrite map_length, seq_length|]. split.
  - apply cheb_increasing; [|exact M]. intros k Hk. assert (A := B k Hk). lra.
  - apply Forall_forall. intros x K. apply in_map_iff in K. destruct K as (k & <- & I). apply in_seq in I.
    assert (A := B k ltac:(lia)).
    assert (cos (f k) < cos 0) by (apply cos_decreasing_1; lra).
    assert (cos PI < cos (f k)) by (apply cos_decreasing_1; lra).
    rewrite cos_0 in *. rewrite cos_PI in *. lra.
Qed.

Lemma frac_lt a b c d : 0 < c -> 0 < d -> a * d < b * c -> a / c < b / d.
Proof.
  intros Hc Hd H. apply (Rmult_lt_reg_r (c * d)); [nra|].
  replace (a / c * (c * d)) with (a * d) by (field; lra).
  replace (b / d * (c * d)) with (b * c) by (field; lra). exact H.
Qed.

Lemma CG_set N : inner_set N (CG N).
Proof.
  rewrite CG_closed.
  apply (cheb_inner (fun k => PI * (2 * INR k + 1) / INR N / 2)); assert (P := PI_RGT_0).
  - intros k Hk. assert (0 < INR N) by (apply lt_0_INR; lia).
    assert (INR k + 1 <= INR N) by (rewrite <- S_INR; apply le_INR; lia).
    assert (0 <= INR k) by apply pos_INR.
    replace (PI * (2 * INR k + 1) / INR N / 2) with (PI * ((2 * INR k + 1) / (2 * INR N))) by (field; lra).
    assert (0 < (2 * INR k + 1) / (2 * INR N) < 1); [|nra]. split.
    + apply Rdiv_lt_0_compat; lra.
    + apply (Rmult_lt_reg_r (2 * INR N)); [lra|].
      replace ((2 * INR k + 1) / (2 * INR N) * (2 * INR N)) with (2 * INR k + 1) by (field; lra). lra.
  - intros i j Hij. assert (0 < INR N) by (apply lt_0_INR; lia).
    assert (INR i < INR j) by (apply lt_INR; lia).
    unfold Rdiv. repeat (apply Rmult_lt_compat_r; [try apply Rinv_0_lt_compat; lra|]).
    apply Rmult_lt_compat_l; lra.
Qed.

Lemma seq_ends N : (2 <= N)%nat -> seq 0 N = [0%nat] ++ seq 1 (N - 2) ++ [(N - 1)%nat].
Proof.
  intros H. destruct N as [|[|n]]; [lia|lia|]. replace (S (S n) - 2)%nat with n by lia.
  change (seq 0 (S (S n))) with (0%nat :: seq 1 (S n)). rewrite seq_S. simpl. now rewrite Nat.sub_0_r || (repeat f_equal; lia).
Qed.
Lemma seq_shift1 n : seq 1 n = map S (seq 0 n).
Proof. symmetry. apply seq_shift. Qed.

Lemma CGL_set N : (2 <= N)%nat -> exists c, CGL N = with_ends true true c /\ inner_set (N - 2) c.
Proof.
  intros HN. rewrite CGL_closed by exact HN. rewrite seq_ends by exact HN.
  assert (1 < INR N) by (apply (lt_INR 1); lia).
  rewrite !map_app. cbn [map].
  exists (map (fun k => - cos (PI * INR (S k) / (INR N - 1))) (seq 0 (N - 2))). split.
  - unfold with_ends. f_equal; [|f_equal].
    + simpl INR. replace (PI * 0 / (INR N - 1)) with 0 by (field; lra). rewrite cos_0. f_equal; lra.
    + now rewrite seq_shift1, map_map.
    + rewrite minus_INR by lia. simpl INR.
      replace (PI * (INR N - 1) / (INR N - 1)) with PI by (field; lra). rewrite cos_PI. f_equal; lra.
  - apply (cheb_inner (fun k => PI * INR (S k) / (INR N - 1))); assert (P := PI_RGT_0).
    + intros k Hk.
      assert (INR (S k) + 1 <= INR N - 1).
      { rewrite <- S_INR. replace (INR N - 1) with (INR (N - 1)) by (rewrite minus_INR by lia; simpl; ring).
        apply le_INR. lia. }
      assert (0 < INR (S k)) by (apply lt_0_INR; lia).
      replace (PI * INR (S k) / (INR N - 1)) with (PI * (INR (S k) / (INR N - 1))) by (field; lra).
      assert (0 < INR (S k) / (INR N - 1) < 1); [|nra]. split.
      * apply Rdiv_lt_0_compat; lra.
      * apply (Rmult_lt_reg_r (INR N - 1)); [lra|].
        replace (INR (S k) / (INR N - 1) * (INR N - 1)) with (INR (S k)) by (field; lra). lra.
    + intros i j Hij. assert (INR (S i) < INR (S j)) by (apply lt_INR; lia).
      apply Rmult_lt_compat_r; [apply Rinv_0_lt_compat; lra|]. apply Rmult_lt_compat_l; lra.
Qed.

Lemma CGR_set N : (1 <= N)%nat -> exists c, CGR N = with_ends true false c /\ inner_set (N - 1) c.
Proof.
  intros HN. rewrite CGR_closed.
  assert (1 <= INR N) by (apply (le_INR 1); lia).
  destruct N as [|n]; [lia|]. cbn [seq map]. replace (S n - 1)%nat with n by lia.
  exists (map (fun k => - cos (PI * (2 * INR (S k)) / (2 * INR (S n) - 1))) (seq 0 n)). split.
  - unfold with_ends. rewrite app_nil_r. cbn [app]. f_equal.
    + simpl (INR 0). replace (PI * (2 * 0) / (2 * INR (S n) - 1)) with 0 by (field; lra). rewrite cos_0. lra.
    + now rewrite seq_shift1, map_map.
  - apply (cheb_inner (fun k => PI * (2 * INR (S k)) / (2 * INR (S n) - 1))); assert (P := PI_RGT_0).
    + intros k Hk.
      assert (INR (S k) + 1 <= INR (S n)).
      { rewrite <- S_INR. apply le_INR. lia. }
      assert (0 < INR (S k)) by (apply lt_0_INR; lia).
      replace (PI * (2 * INR (S k)) / (2 * INR (S n) - 1))
        with (PI * ((2 * INR (S k)) / (2 * INR (S n) - 1))) by (field; lra).
      assert (0 < (2 * INR (S k)) / (2 * INR (S n) - 1) < 1); [|nra]. split.
      * apply Rdiv_lt_0_compat; lra.
      * apply (Rmult_lt_reg_r (2 * INR (S n) - 1)); [lra|].
        replace (2 * INR (S k) / (2 * INR (S n) - 1) * (2 * INR (S n) - 1)) with (2 * INR (S k)) by (field; lra). lra.
    + intros i j Hij. assert (INR (S i) < INR (S j)) by (apply lt_INR; lia).
      apply Rmult_lt_compat_r; [apply Rinv_0_lt_compat; lra|]. apply Rmult_lt_compat_l; lra.
Qed.

(** ** Mirrored sets *)
Lemma neg_rev_inner n c : inner_set n c -> inner_set n (neg_rev c).
Proof.
  intros (L & I & F). rewrite Forall_forall in F. unfold neg_rev. split; [now rewrite map_length, rev_length|]. split.
  - intros i j Hij. rewrite map_length, rev_length in Hij. unfold vnth.
    rewrite !(nth_map' _ _ _ 0) by (rewrite rev_length; lia).
    rewrite !rev_nth by lia.
    assert (A := I (length c - S j)%nat (length c - S i)%nat ltac:(lia)). unfold vnth in A. lra.
  - apply Forall_forall. intros x K. apply in_map_iff in K. destruct K as (y & <- & K).
    apply in_rev in K. apply F in K. lra.
Qed.
Lemma neg_rev_ends l r c : neg_rev (with_ends l r c) = with_ends r l (neg_rev c).
Proof.
  unfold neg_rev, with_ends. rewrite !rev_app_distr, !map_app, <- app_assoc.
  f_equal; [|f_equal].
  - destruct r; simpl; [f_equal; lra|reflexivity].
  - destruct l; simpl; [f_equal; lra|reflexivity].
Qed.

(** ** All the schemes *)
Ltac scheme_cases H :=
  cbv [all_schemes schemes_with_start schemes_with_end In] in H;
  repeat match type of H with
    | _ \/ _ => destruct H as [H|H]
    | False => destruct H
    end; try subst.

Definition starts (s : string) : bool := mem s schemes_with_start.
Definition ends (s : string) : bool := mem s schemes_with_end.

Lemma mem_In s l : mem s l = true <-> In s l.
Proof.
  unfold mem. rewrite existsb_exists. split.
  - intros (x & I & E). apply String.eqb_eq in E. now subst.
  - intros I. exists s. split; [exact I|apply String.eqb_refl].
Qed.

Section All.
Variable rr : list R -> list R.
Hypothesis OK : real_roots_ok rr.

Lemma coll_points_inner s N order : In s all_schemes -> enough_points s N ->
  exists c, coll_points rr N s order = Ok (with_ends (starts s) (ends s) c) /\
    inner_set (N - (if starts s then 1 else 0) - (if ends s then 1 else 0)) c.
Proof.
  intros H [H1 H2].
  assert (NE : forall c : list R, with_ends false false c = c) by (intros; unfold with_ends; simpl; apply app_nil_r).
  assert (HG := LG_set rr OK N). assert (HC := CG_set N).
  assert (HR := LGR_set rr OK N H1). assert (HCR := CGR_set N H1).
  assert (HM := LGLm_set rr OK N).
  scheme_cases H;
    try (assert (H3 : (2 <= N)%nat) by (apply H2; cbv; tauto));
    match goal with |- context [coll_points rr N ?s _] =>
      let b := eval cbv in (starts s) in change (starts s) with b;
      let b := eval cbv in (ends s) in change (ends s) with b end;
    cbv [coll_points mem existsb String.eqb Ascii.eqb Bool.eqb orb]; cbv beta iota;
    rewrite ?Nat.sub_0_r;
    try (eexists; split; [rewrite NE; reflexivity|];
         first [exact HG|exact HC|exact HM|apply jacobi_set; exact OK]).
  - destruct HR as (c & E & S). exists c. now rewrite E.
  - exists (rr (jacobi (N - 1) (order - 1) 1)). split; [unfold with_ends; now rewrite app_nil_r|].
    now apply jacobi_set.
  - destruct HCR as (c & E & S). exists c. now rewrite E.
  - destruct HR as (c & E & S). exists (neg_rev c). rewrite E, neg_rev_ends.
    split; [reflexivity|]. now apply neg_rev_inner.
  - exists (rr (jacobi (N - 1) order 0)). split; [reflexivity|]. now apply jacobi_set.
  - destruct HCR as (c & E & S). exists (neg_rev c). rewrite E, neg_rev_ends.
    split; [reflexivity|]. now apply neg_rev_inner.
  - destruct (LGL_set rr OK N H3) as (c & E & S). exists c. rewrite E. split; [reflexivity|].
    now replace (N - 1 - 1)%nat with (N - 2)%nat by lia.
  - exists (rr (jacobi (N - 2) order 1)). split; [reflexivity|].
    replace (N - 1 - 1)%nat with (N - 2)%nat by lia. now apply jacobi_set.
  - destruct (CGL_set N H3) as (c & E & S). exists c. rewrite E. split; [reflexivity|].
    now replace (N - 1 - 1)%nat with (N - 2)%nat by lia.
  - destruct (LGL_set rr OK N H3) as (c & E & S). exists c. rewrite E. split; [reflexivity|].
    now replace (N - 1 - 1)%nat with (N - 2)%nat by lia.
Qed.

Lemma enough_starts s N : In s all_schemes -> enough_points s N ->
  ((if starts s then 1 else 0) + (N - (if starts s then 1 else 0) - (if ends s then 1 else 0))
   + (if ends s then 1 else 0) = N)%nat.
Proof.
  intros H [H1 H2]. scheme_cases H;
    try (assert (H3 : (2 <= N)%nat) by (apply H2; cbv; tauto)); cbv [starts ends mem existsb String.eqb Ascii.eqb Bool.eqb orb schemes_with_start schemes_with_end]; lia.
Qed.

Lemma coll_points_ok s N order : In s all_schemes -> enough_points s N ->
  exists c, coll_points rr N s order = Ok c /\
    point_set (In s schemes_with_start) (In s schemes_with_end) N c.
Proof.
  intros H E. destruct (coll_points_inner s N order H E) as (c & -> & S).
  exists (with_ends (starts s) (ends s) c). split; [reflexivity|].
  apply (with_ends_ok (starts s) (ends s)) in S.
  rewrite (enough_starts s N H E) in S.
  destruct S as (A & B & C & D & F). repeat split; try tauto.
  - intros K. apply mem_In. now apply D.
  - intros K. apply D. now apply mem_In.
  - intros K. apply mem_In. now apply F.
  - intros K. apply F. now apply mem_In.
Qed.
End All.
