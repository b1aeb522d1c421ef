(** Proofs about the restrictions of order M in memory: the three functions. *)
From Verif Require Import Prelude PreludeFacts PwModel PwFacts PwMoreProofs NumpyModel MemModel MemSpec MemProofs MemLoopProofs.
Open Scope list_scope.
Open Scope R_scope.

(** The blocks of the copy of x are filled and written back. *)
Section Filled.
  Variables (share : bool) (m : memory) (x : arr) (M n : nat).
  Hypothesis HM : (0 < M)%nat.
  Hypothesis Ix : in_memory m x.
  Hypothesis Lx : a_len x = (M * n)%nat.
  Hypothesis Fx : floats m x.
  Notation c0 := {| c_type := c_type (cell_of m x); c_val := rd m x |}.
  Notation res := (head_arr m (a_len x)).
  Variables (l : list cell) (xl : list arr).
  Notation mb := (m ++ c0 :: l).
  Hypothesis Hxl : forall k, (k < M)%nat -> in_memory mb (item xl k) /\ rd mb (item xl k) = slice (n * k) (n * (k + 1)) (rd m x) /\
    a_buf (item xl k) <> length m.
  Variables (start : nat -> com vec) (init : nat -> vec) (coef : nat -> R) (count : nat -> nat).
  Hypothesis Hc : forall l, (count l <= l)%nat.
  Hypothesis Hs : forall m' j, intact m m' -> (forall u, in_memory mb u -> a_buf u <> length m -> rd m' u = rd mb u) ->
    (1 <= j <= M)%nat -> start j m' = Ok (init j, m') /\ length (init j) = n.

  Definition block (k : nat) : vec :=
    accum (init (M - k)) (map (fun i => coef i *v nth (i + M - (M - k)) (PwModel.get_x_divisions (rd m x) M) []) (seq 0 (count (M - k)))).
  Lemma filled {B} (rest : com B) : exists m3,
    mbind (get_x_divisions share res M) (fun rl => mbind (fill M xl rl start coef count) (fun _ => mbind (reunite_matrix res rl M) (fun _ => rest))) mb
    = rest m3 /\ intact m m3 /\ in_memory m3 res /\
    rd m3 res = reunite (rd m x) (map block (seq 0 M)) M /\ length (reunite (rd m x) (map block (seq 0 M)) M) = (M * n)%nat.
  Proof.
    assert (LX : length (rd m x) = (M * n)%nat) by (rewrite rd_length; auto).
    assert (Ires : in_memory mb res) by (apply head_in; cbn [c_val]; rewrite LX; auto).
    destruct (divisions_ok share mb res M n Ires Lx) as (rl & l3 & E1 & _ & D).
    set (m1 := mb ++ l3) in *.
    assert (I1 : intact m m1) by (exists (c0 :: l ++ l3); unfold m1; rewrite <- app_assoc; reflexivity).
    assert (Lb : (length m < length mb)%nat) by (rewrite app_length; cbn [length]; lia).
    assert (Br : forall k, (k < M)%nat -> (length m <= a_buf (item rl k))%nat /\ (a_buf (item rl k) = length m \/ (length mb <= a_buf (item rl k))%nat)).
    { intros k Hk. destruct (D k Hk) as (_ & _ & _ & _ & S). destruct share; [rewrite S; cbn [part a_buf head_arr]; lia|rewrite S; lia]. }
    set (X := fun k => slice (n * k) (n * (k + 1)) (rd m x)).
    assert (SL : forall k, (k < M)%nat -> length (X k) = n).
    { intros k Hk. unfold X. rewrite slice_length, LX. nia. }
    assert (Dxr : forall u, in_memory mb u -> a_buf u <> length m -> forall j, (j < M)%nat -> disjoint u (item rl j)).
    { intros u [Hu _] N j Hj. left. destruct (Br j Hj) as [_ [->|G]]; [exact N|lia]. }
    destruct (fill_ok m m1 xl rl M n X I1) with (start := start) (init := init) (coef := coef) (count := count) as (m2 & E2 & S2 & W2).
    - intros k Hk. destruct (D k Hk) as (A & B' & _ & T & _). split; [exact A|]. split; [|split; [exact B'|apply Br, Hk]].
      unfold floats. rewrite T. rewrite cell_head by reflexivity. exact Fx.
    - intros k j Hk Hj N. destruct (D k Hk) as (_ & _ & _ & _ & Sk), (D j Hj) as (_ & _ & _ & _ & Sj).
      destruct share; [rewrite Sk, Sj; right; cbn [part a_off a_len fst snd]; nia|left; rewrite Sk, Sj; lia].
    - intros k Hk. destruct (Hxl k Hk) as (A & B' & _). split; [now apply in_app|]. split; [|now apply SL].
      unfold m1. rewrite rd_app by exact A. exact B'.
    - intros k j Hk Hj. destruct (Hxl k Hk) as (A & _ & N). now apply Dxr.
    - intros m' j (Sh & In & K) Hj. apply Hs; auto. intros u Iu Nu. rewrite K; [|now apply in_app|now apply Dxr].
      unfold m1. now apply rd_app.
    - exact Hc.
    - assert (TL : forall k, (k < M)%nat -> length (target M X init coef count k) = n).
      { intros k Hk. unfold target. pose proof (Hc (M - k)) as HC. apply accum_length.
        - destruct (Hs m1 (M - k) I1) as [_ Li]; [|lia|exact Li]. intros u Iu _. unfold m1. now apply rd_app.
        - intros t Ht. apply in_map_iff in Ht. destruct Ht as (i & <- & Hi). apply in_seq in Hi. rewrite vscale_length. apply SL. lia. }
      destruct S2 as (Sh & In & K).
      destruct (reunite_ok m m2 rl res M n (target M X init coef count) HM In) as (m3 & E3 & S3 & I3 & W3).
      + apply (shape_in m1); [exact Sh|]. now apply in_app.
      + apply (shape_floats m1); [exact Sh|]. unfold floats, m1. rewrite cell_app by apply Ires. rewrite cell_head by reflexivity. exact Fx.
      + exact Lx.
      + cbn [head_arr a_buf]. lia.
      + intros k Hk. split; [apply (shape_in m1); [exact Sh|apply (D k Hk)]|]. split; [now apply W2|now apply TL].
      + intros k j Hk Hj. destruct (D k Hk) as (_ & Lk & _ & _ & Sk). destruct share.
        * destruct (Nat.eq_dec k j) as [->|N]; [left; auto|]. right. rewrite Sk. right. cbn [part a_off a_len fst snd]. nia.
        * right. left. rewrite Sk. cbn [part a_buf head_arr]. lia.
      + exists m3. split; [unfold mbind; rewrite E1, E2, E3; reflexivity|]. split; [exact I3|].
        assert (I3r : in_memory m3 res) by (apply (shape_in m2); [exact S3|]; apply (shape_in m1); [exact Sh|]; now apply in_app).
        split; [exact I3r|].
        assert (BT : map block (seq 0 M) = map (target M X init coef count) (seq 0 M)).
        { apply map_ext_in. intros k Hk. apply in_seq in Hk. unfold block, target. f_equal. apply map_ext_in. intros i Hi. apply in_seq in Hi.
          pose proof (Hc (M - k)). rewrite (nth_get_x_divisions _ M n) by (auto; lia). reflexivity. }
        assert (RC : reunite (rd m x) (map block (seq 0 M)) M = rd m3 res).
        { rewrite W3, BT. apply (reunite_concat _ M n); auto; [rewrite map_length, seq_length; reflexivity|].
          intros k Hk. rewrite (nth_indep _ [] (target M X init coef count 0%nat)) by (rewrite map_length, seq_length; lia).
          rewrite map_nth, seq_nth by lia. now apply TL. }
        split; [now rewrite RC|]. rewrite RC, rd_length by exact I3r. exact Lx.
  Qed.
End Filled.

Section Order.
  Variables (share : bool) (m : memory) (x x_n a a_n a_c : arr) (dt : R) (M n : nat).
  Hypothesis HM : (0 < M)%nat.
  Hypothesis Ix : in_memory m x.
  Hypothesis Ixn : in_memory m x_n.
  Hypothesis Ia : in_memory m a.
  Hypothesis Ian : in_memory m a_n.
  Hypothesis Iac : in_memory m a_c.
  Hypothesis Lx : a_len x = (M * n)%nat.
  Hypothesis Lxn : a_len x_n = (M * n)%nat.
  Hypothesis La : a_len a = n.
  Hypothesis Lan : a_len a_n = n.
  Hypothesis Lac : a_len a_c = n.
  Hypothesis Fx : floats m x.
  Notation c0 := {| c_type := c_type (cell_of m x); c_val := rd m x |}.
  Notation res := (head_arr m (a_len x)).

  Lemma old_rd m' v : intact m m' -> in_memory m v -> rd m' v = rd m v.
  Proof. intros (l & ->) I. now apply rd_app. Qed.
  Lemma x_blocks : exists xl l, get_x_divisions share x M (m ++ [c0]) = Ok (xl, m ++ c0 :: l) /\
    forall k l', (k < M)%nat -> in_memory (m ++ c0 :: l ++ l') (item xl k) /\
    rd (m ++ c0 :: l ++ l') (item xl k) = slice (n * k) (n * (k + 1)) (rd m x) /\ a_buf (item xl k) <> length m.
  Proof.
    destruct (divisions_ok share (m ++ [c0]) x M n (in_app _ _ _ Ix) Lx) as (xl & l & E & _ & D).
    exists xl, l. rewrite <- app_assoc in E. split; [exact E|]. intros k l' Hk. destruct (D k Hk) as (A & B & C & _ & S).
    replace (m ++ c0 :: l ++ l') with (((m ++ [c0]) ++ l) ++ l') by (rewrite <- !app_assoc; reflexivity).
    split; [now apply in_app|]. split; [rewrite rd_app by exact A; rewrite C; now rewrite rd_app|].
    destruct share.
    - rewrite S. cbn [part a_buf]. destruct Ix. lia.
    - rewrite S, app_length. cbn [length]. lia.
  Qed.
  Lemma ends m3 w : intact m m3 -> in_memory m3 res -> rd m3 res = w ->
    exists r m', mbind (get x_n) (fun X_n => mbind (get res) (fun r => new (X_n -v r))) m3 = Ok (r, m') /\ rd m' r = rd m x_n -v w /\
    in_memory m' r /\ (length m <= a_buf r)%nat /\ intact m m'.
  Proof.
    intros I J W. unfold mbind, get. rewrite (old_rd m3 x_n) by auto. rewrite W.
    destruct I as (l & ->). unfold new. eexists _, _. split; [reflexivity|].
    split; [apply (rd_head (m ++ l) (length (rd m x_n -v w))); reflexivity|].
    split; [apply (head_in (m ++ l) (length (rd m x_n -v w))); reflexivity|].
    cbn [a_buf]. split; [rewrite app_length; lia|]. rewrite <- app_assoc. eexists. reflexivity.
  Qed.

  Lemma trapz_m_ok : returns_new m (trapz_m_accel_restr share x x_n a a_n dt M)
    (PwModel.trapz_m_accel_restr M (rd m x) (rd m x_n) (rd m a) (rd m a_n) dt).
  Proof.
    destruct x_blocks as (xl & l & E & D). unfold returns_new, trapz_m_accel_restr. unfold mbind at 1. rewrite copy_head. unfold mbind at 1. rewrite E.
    destruct (filled share m x M n HM Ix Lx Fx l xl) with
      (start := fun l => mbind (get a) (fun A => mbind (get a_n) (fun A_n => ret ((dt ^ l * (1 / INR (fact (l + 1)))) *v (INR l *v A +v A_n)))))
      (init := fun l => (dt ^ l * (1 / INR (fact (l + 1)))) *v (INR l *v rd m a +v rd m a_n))
      (coef := fun i => dt ^ i * (1 / INR (fact i))) (count := fun l : nat => l)
      (rest := mbind (get x_n) (fun X_n => mbind (get res) (fun r => new (X_n -v r)))) as (m3 & -> & I3 & J3 & W3 & _).
    - intros k Hk. specialize (D k [] Hk). rewrite app_nil_r in D. exact D.
    - intros j. lia.
    - intros m' j I _ _. unfold mbind, get, ret. rewrite !(old_rd m') by auto. split; [reflexivity|].
      rewrite vscale_length, vadd_length, vscale_length, !rd_length by auto. lia.
    - destruct (ends m3 _ I3 J3 W3) as (r & m' & Er & Rr & H). exists r, m'. split; [exact Er|]. split; [exact Rr|exact H].
  Qed.
  Lemma hs_m_ok : returns_new m (hs_m_accel_restr share x x_n a a_n dt M a_c)
    (PwModel.hs_m_accel_restr M (rd m x) (rd m x_n) (rd m a) (rd m a_n) dt (rd m a_c)).
  Proof.
    destruct x_blocks as (xl & l & E & D). unfold returns_new, hs_m_accel_restr. unfold mbind at 1. rewrite copy_head. unfold mbind at 1. rewrite E.
    destruct (filled share m x M n HM Ix Lx Fx l xl) with
      (start := fun l => mbind (get a) (fun A => mbind (get a_n) (fun A_n => mbind (get a_c) (fun A_c =>
         ret ((dt ^ l / INR (fact (l + 2))) *v ((INR l ^ 2) *v A +v (4 * INR l) *v A_c +v (2 - INR l) *v A_n))))))
      (init := fun l => (dt ^ l / INR (fact (l + 2))) *v ((INR l ^ 2) *v rd m a +v (4 * INR l) *v rd m a_c +v (2 - INR l) *v rd m a_n))
      (coef := fun i => dt ^ i * (1 / INR (fact i))) (count := fun l : nat => l)
      (rest := mbind (get x_n) (fun X_n => mbind (get res) (fun r => new (X_n -v r)))) as (m3 & -> & I3 & J3 & W3 & _).
    - intros k Hk. specialize (D k [] Hk). rewrite app_nil_r in D. exact D.
    - intros j. lia.
    - intros m' j I _ _. unfold mbind, get, ret. rewrite !(old_rd m') by auto. split; [reflexivity|].
      rewrite ?vscale_length, ?vadd_length, ?vscale_length, ?vadd_length, ?vscale_length, !rd_length by auto. lia.
    - destruct (ends m3 _ I3 J3 W3) as (r & m' & Er & Rr & H). exists r, m'. split; [exact Er|]. split; [exact Rr|exact H].
  Qed.
  Lemma hs_m_half_ok : returns_new m (hs_m_half_x share x x_n a a_n dt M)
    (PwModel.hs_m_half_x M (rd m x) (rd m x_n) (rd m a) (rd m a_n) dt).
  Proof.
    destruct x_blocks as (xl & l & E & D). unfold returns_new, hs_m_half_x. unfold mbind at 1. rewrite copy_head. unfold mbind at 1. rewrite E.
    unfold mbind at 1.
    destruct (divisions_ok share (m ++ c0 :: l) x_n M n (in_app _ _ _ Ixn) Lxn) as (xnl & l2 & -> & _ & D2).
    rewrite <- app_assoc in *. cbn [app] in *.
    assert (LX : length (rd m x) = (M * n)%nat) by (rewrite rd_length; auto).
    assert (LXn : length (rd m x_n) = (M * n)%nat) by (rewrite rd_length; auto).
    set (V := slice (n * (M - 1)) (n * (M - 1 + 1)) (rd m x)). set (V_n := slice (n * (M - 1)) (n * (M - 1 + 1)) (rd m x_n)).
    assert (LV : length V = n) by (unfold V; rewrite slice_length, LX; nia).
    assert (LVn : length V_n = n) by (unfold V_n; rewrite slice_length, LXn; nia).
    destruct (filled share m x M n HM Ix Lx Fx (l ++ l2) xl) with
      (start := fun l => mbind (get (item xl (M - 1))) (fun V => mbind (get (item xnl (M - 1))) (fun V_n => mbind (get a) (fun A => mbind (get a_n) (fun A_n =>
         ret ((dt ^ (l - 1) / (2 ^ l * INR (fact l) * (INR l + 2)))
               *v (3 *v V_n +v (2 * INR l ^ 2 + 4 * INR l - 3) *v V)
             +v (dt ^ l / (2 ^ (l + 1) * INR (fact (l + 2))))
               *v ((2 * INR l ^ 2 + 2 * INR l - 1) *v A +v (-2 * INR l - 1) *v A_n)))))))
      (init := fun l => (dt ^ (l - 1) / (2 ^ l * INR (fact l) * (INR l + 2)))
               *v (3 *v V_n +v (2 * INR l ^ 2 + 4 * INR l - 3) *v V)
             +v (dt ^ l / (2 ^ (l + 1) * INR (fact (l + 2))))
               *v ((2 * INR l ^ 2 + 2 * INR l - 1) *v rd m a +v (-2 * INR l - 1) *v rd m a_n))
      (coef := fun i => dt ^ i * (1 / (2 ^ i * INR (fact i)))) (count := fun l : nat => (l - 1)%nat)
      (rest := ret res) as (m3 & E3 & I3 & J3 & W3 & _).
    - intros k Hk. apply D, Hk.
    - intros j. lia.
    - intros m' j I K _. unfold mbind, get, ret.
      destruct (D (M - 1)%nat l2 ltac:(lia)) as (A1 & B1 & N1). rewrite (K _ A1 N1), B1. fold V.
      destruct (D2 (M - 1)%nat ltac:(lia)) as (A2 & _ & B2 & _ & S2).
      rewrite (K _ A2), B2. 2:{ destruct share; rewrite S2; [cbn [part a_buf]; destruct Ixn; lia|rewrite app_length; cbn [length]; lia]. }
      rewrite (rd_app m (c0 :: l) x_n Ixn). fold V_n. rewrite !(old_rd m') by auto. split; [reflexivity|].
      rewrite ?vadd_length, ?vscale_length, ?vadd_length, ?vscale_length, !rd_length by auto. lia.
    - exists res, m3. split; [exact E3|]. split; [|split; [exact J3|split; [cbn [head_arr a_buf]; lia|exact I3]]].
      rewrite W3. unfold PwModel.hs_m_half_x. rewrite !last_get_x_divisions by exact HM. rewrite !(nth_get_x_divisions _ M n) by (auto; lia). reflexivity.
  Qed.
End Order.
