(** Proofs about the restrictions in memory: values and what is left intact. *)
From Verif Require Import Prelude PreludeFacts PwModel PwFacts NumpyModel MemModel MemSpec.
Open Scope list_scope.
Open Scope R_scope.

(** ** Lists *)
Lemma slice_all {A} (l : list A) n : length l = n -> slice 0 n l = l.
Proof. intros <-. unfold slice. cbn [skipn]. rewrite Nat.sub_0_r. apply firstn_all. Qed.
Lemma slice_slice {A} (l : list A) o n a b : (b <= n)%nat -> slice (o + a) (o + a + (b - a)) l = slice a b (slice o (o + n) l).
Proof.
  intros H. unfold slice. replace (o + a + (b - a) - (o + a))%nat with (b - a)%nat by lia.
  replace (o + n - o)%nat with n by lia. rewrite skipn_firstn_comm, firstn_firstn.
  rewrite skipn_skipn'. destruct (Nat.le_gt_cases a b).
  - now replace (Nat.min (b - a) (n - a)) with (b - a)%nat by lia.
  - replace (b - a)%nat with 0%nat by lia. reflexivity.
Qed.
Lemma vnth_slice a b (l : vec) i : (i < b - a)%nat -> vnth (slice a b l) i = vnth l (a + i).
Proof. intros H. unfold slice. rewrite vnth_firstn, vnth_skipn. destruct (Nat.ltb_spec i (b - a)); [reflexivity|lia]. Qed.
Lemma vec_ext (a b : vec) : length a = length b -> (forall i, (i < length a)%nat -> vnth a i = vnth b i) -> a = b.
Proof. intros L H. apply (nth_ext a b 0 0 L). exact H. Qed.
Lemma map_float w : map (store D_float) w = w.
Proof. induction w as [|r w IH]; [reflexivity|]. cbn [map]. now rewrite IH. Qed.

(** ** Reading *)
Lemma cell_app m l v : (a_buf v < length m)%nat -> cell_of (m ++ l) v = cell_of m v.
Proof. intros H. unfold cell_of. now rewrite app_nth1. Qed.
Lemma rd_app m l v : in_memory m v -> rd (m ++ l) v = rd m v.
Proof. intros [H _]. unfold rd. now rewrite cell_app. Qed.
Lemma in_app m l v : in_memory m v -> in_memory (m ++ l) v.
Proof. intros [H K]. split; [rewrite app_length; lia|]. now rewrite cell_app. Qed.
Lemma rd_length m v : in_memory m v -> length (rd m v) = a_len v.
Proof. intros [_ H]. unfold rd. rewrite slice_length. lia. Qed.
Lemma part_in m v a b : in_memory m v -> (b <= a_len v)%nat -> (a <= b)%nat -> in_memory m (part v (a, b)).
Proof. intros [H K] B A. split; [exact H|]. unfold cell_of in *. cbn [part a_buf a_off a_len fst snd]. lia. Qed.
Lemma rd_part m v a b : (b <= a_len v)%nat -> rd m (part v (a, b)) = slice a b (rd m v).
Proof. intros B. unfold rd. cbn [part a_buf a_off a_len fst snd]. change (cell_of m (part v (a, b))) with (cell_of m v). now apply slice_slice. Qed.

(** The head of the new blocks. *)
Definition head_arr (m : memory) (n : nat) : arr := {| a_buf := length m; a_off := 0; a_len := n |}.
Lemma cell_head m c l v : a_buf v = length m -> cell_of (m ++ c :: l) v = c.
Proof. intros E. unfold cell_of. rewrite E, app_nth2, Nat.sub_diag by lia. reflexivity. Qed.
Lemma set_head m c c' l : set_cell (length m) c' (m ++ c :: l) = m ++ c' :: l.
Proof.
  unfold set_cell, set_slice. cbn [length]. rewrite firstn_app, Nat.sub_diag, firstn_all. cbn [firstn]. rewrite app_nil_r. f_equal.
  rewrite skipn_app. rewrite skipn_all2 by lia. replace (length m + 1 - length m)%nat with 1%nat by lia. reflexivity.
Qed.
Lemma put_head m n lo hi w val l : (lo <= hi)%nat -> (hi <= n)%nat -> length w = (hi - lo)%nat -> length val = n ->
  put_at (head_arr m n) (lo, hi) w (m ++ {| c_type := D_float; c_val := val |} :: l)
  = Ok (tt, m ++ {| c_type := D_float; c_val := set_slice lo w val |} :: l).
Proof.
  intros LH H L LV. unfold put_at, put. cbn [part head_arr a_buf a_off a_len fst snd].
  replace (if (length w =? 1)%nat then repeat (vnth w 0) (hi - lo) else w) with w.
  2:{ destruct (Nat.eqb_spec (length w) 1); [|reflexivity]. destruct w as [|r [|]]; cbn [length] in *; try lia. rewrite <- L. reflexivity. }
  rewrite L, Nat.eqb_refl. rewrite cell_head by reflexivity. cbn [c_type c_val]. rewrite map_float.
  change (0 + lo)%nat with lo. now rewrite set_head.
Qed.
Lemma rd_head m n c l : length (c_val c) = n -> rd (m ++ c :: l) (head_arr m n) = c_val c.
Proof. intros L. unfold rd. rewrite cell_head by reflexivity. cbn [head_arr a_off a_len]. now apply slice_all. Qed.
Lemma head_in m n c l : length (c_val c) = n -> in_memory (m ++ c :: l) (head_arr m n).
Proof. intros L. split; [rewrite app_length; cbn [length head_arr a_buf]; lia|]. rewrite cell_head by reflexivity. cbn [head_arr a_off a_len]. lia. Qed.
Lemma copy_head m x : copy_arr x m = Ok (head_arr m (a_len x), m ++ [{| c_type := c_type (cell_of m x); c_val := rd m x |}]).
Proof. reflexivity. Qed.

(** New blocks after the head stay as they are while the head changes. *)
Lemma new_after m c l w : exists r, new w (m ++ c :: l) = Ok (r, m ++ c :: (l ++ [{| c_type := D_float; c_val := w |}])) /\
  (forall c' l', rd (m ++ c' :: ((l ++ [{| c_type := D_float; c_val := w |}]) ++ l')) r = w) /\
  (length m <= a_buf r)%nat /\ in_memory (m ++ c :: (l ++ [{| c_type := D_float; c_val := w |}])) r.
Proof.
  eexists. split; [unfold new; rewrite <- app_assoc; reflexivity|]. split; [|split].
  - intros c' l'. unfold rd, cell_of. cbn [a_buf a_off a_len]. rewrite app_length. cbn [length].
    rewrite app_nth2 by lia. replace (length m + S (length l) - length m)%nat with (S (length l)) by lia. cbn [nth].
    rewrite <- app_assoc. rewrite app_nth2 by lia. rewrite Nat.sub_diag. cbn [app nth c_val]. now apply slice_all.
  - cbn [a_buf]. rewrite app_length. lia.
  - split; [cbn [a_buf]; rewrite !app_length; cbn [length]; rewrite app_length; cbn [length]; lia|].
    unfold cell_of. cbn [a_buf a_off a_len]. rewrite app_length. cbn [length].
    rewrite app_nth2 by lia. replace (length m + S (length l) - length m)%nat with (S (length l)) by lia. cbn [nth].
    rewrite app_nth2 by lia. rewrite Nat.sub_diag. cbn [app nth c_val]. lia.
Qed.
Lemma cut_after share m c l x a b : in_memory m x -> (a <= b)%nat -> (b <= a_len x)%nat ->
  exists r l1, cut share x (a, b) (m ++ c :: l) = Ok (r, m ++ c :: (l ++ l1)) /\
  forall c' l', rd (m ++ c' :: ((l ++ l1) ++ l')) r = slice a b (rd m x).
Proof.
  intros I A B. destruct share; cbn [cut].
  - exists (part x (a, b)), []. rewrite app_nil_r. split; [reflexivity|]. intros c' l'.
    rewrite rd_app by now apply part_in. now apply rd_part.
  - unfold copy_arr. rewrite <- app_assoc. eexists _, [_]. split; [reflexivity|]. intros c' l'.
    unfold rd at 1. cbn [a_buf a_off a_len part fst snd]. unfold cell_of at 1. cbn [a_buf]. rewrite app_length. cbn [length].
    rewrite app_nth2 by lia. replace (length m + S (length l) - length m)%nat with (S (length l)) by lia. cbn [nth].
    rewrite <- app_assoc. rewrite app_nth2 by lia. rewrite Nat.sub_diag. cbn [app nth c_val].
    change {| a_buf := a_buf x; a_off := a_off x + a; a_len := b - a |} with (part x (a, b)).
    assert (P : in_memory m (part x (a, b))) by now apply part_in.
    rewrite rd_app by exact P. rewrite slice_all; [now apply rd_part|]. rewrite rd_length by exact P. reflexivity.
Qed.

(** ** The straight-line restrictions *)
Definition slices_of (N dim : nat) : slices :=
  {| s_first := (0, dim)%nat; s_last := (N - dim, N)%nat; s_abf := (dim, N); s_abl := (0, N - dim)%nat |}.
Lemma index_div_ok x order dim m : (0 < order)%nat -> (0 < dim)%nat -> a_len x = (order * dim)%nat ->
  index_div x order m = Ok (slices_of (order * dim) dim, m).
Proof.
  intros P D L. unfold index_div. destruct (Nat.eqb_spec order 0); [lia|]. rewrite L, Nat.mul_comm, Nat.div_mul by lia.
  destruct (Nat.eqb_spec dim 0); [lia|]. reflexivity.
Qed.
Lemma order_ok x a M n m : (0 < M)%nat -> (0 < n)%nat -> a_len x = (M * n)%nat -> a_len a = n -> order_from_x_a x a m = Ok (M, m).
Proof.
  intros P D L La. unfold order_from_x_a. rewrite La. destruct (Nat.eqb_spec n 0); [lia|]. rewrite L, Nat.div_mul by lia. reflexivity.
Qed.
Lemma pw_order M n (x a : vec) : (0 < M)%nat -> (0 < n)%nat -> length x = (M * n)%nat -> length a = n ->
  (vec_len x / PwModel.order_from_x_a x a)%nat = n.
Proof.
  intros P D L La. unfold PwModel.order_from_x_a, vec_len. rewrite L, La, Nat.div_mul by lia.
  rewrite Nat.mul_comm, Nat.div_mul by lia. reflexivity.
Qed.

  Lemma new_ok (m : memory) l w : exists r, new w (m ++ l) = Ok (r, (m ++ l) ++ [{| c_type := D_float; c_val := w |}]) /\
    rd ((m ++ l) ++ [{| c_type := D_float; c_val := w |}]) r = w /\ in_memory ((m ++ l) ++ [{| c_type := D_float; c_val := w |}]) r /\ (length m <= a_buf r)%nat /\
    r = head_arr (m ++ l) (length w).
  Proof.
    exists (head_arr (m ++ l) (length w)). split; [reflexivity|].
    split; [now rewrite rd_head|]. split; [now apply head_in|]. split; [cbn [head_arr a_buf]; rewrite app_length; lia|reflexivity].
  Qed.
  Lemma returns_ok (m : memory) l w c : c m = new w (m ++ l) -> returns_new m c w.
  Proof.
    intros E. destruct (new_ok m l w) as (r & N & V & I & G & _). exists r, ((m ++ l) ++ [{| c_type := D_float; c_val := w |}]).
    rewrite E, N. split; [reflexivity|]. split; [exact V|]. split; [exact I|]. split; [exact G|].
    rewrite <- app_assoc. eexists. reflexivity.
  Qed.

Section Straight.
  Variables (m : memory) (x x_n a a_n : arr) (dt : R) (M n : nat).
  Hypothesis HM : (0 < M)%nat.
  Hypothesis Hn : (0 < n)%nat.
  Hypothesis Ix : in_memory m x.
  Hypothesis Ixn : in_memory m x_n.
  Hypothesis Ia : in_memory m a.
  Hypothesis Ian : in_memory m a_n.
  Hypothesis Lx : a_len x = (M * n)%nat.
  Hypothesis Lxn : a_len x_n = (M * n)%nat.
  Hypothesis La : a_len a = n.
  Hypothesis Lan : a_len a_n = n.
  Hypothesis Fx : floats m x.

  Lemma len_x : length (rd m x) = (M * n)%nat. Proof. now rewrite rd_length. Qed.
  Lemma n_le : (n <= M * n)%nat. Proof. destruct M; [lia|]. cbn. lia. Qed.

  Lemma x_dot_ok l y b : in_memory (m ++ l) y -> in_memory (m ++ l) b -> a_len y = (M * n)%nat -> a_len b = n ->
    x_dot_of x (slices_of (M * n) n) y b (m ++ l) = Ok (head_arr (m ++ l) (M * n), (m ++ l) ++
      [{| c_type := D_float; c_val := PwModel.x_dot_of n (rd m x) (rd (m ++ l) y) (rd (m ++ l) b) |}]).
  Proof.
    intros Iy Ib Ly Lb. pose proof n_le as NL. unfold x_dot_of, mbind. rewrite copy_head, Lx, rd_app by exact Ix.
    rewrite cell_app by apply Ix. unfold floats in Fx. rewrite Fx.
    unfold get_at, get. cbn [slices_of s_abf s_abl s_last].
    rewrite (rd_app (m ++ l)) by (apply part_in; auto; lia). rewrite rd_part by lia.
    assert (Ly' : length (slice n (M * n) (rd (m ++ l) y)) = (M * n - n)%nat) by (rewrite slice_length, rd_length, Ly by exact Iy; lia).
    rewrite put_head; [|lia|lia|lia|apply len_x].
    rewrite (rd_app (m ++ l)) by exact Ib.
    assert (S1 : length (set_slice 0 (slice n (M * n) (rd (m ++ l) y)) (rd m x)) = (M * n)%nat)
      by (rewrite set_slice_length; rewrite ?len_x; [reflexivity|lia]).
    rewrite put_head; [|lia|lia|rewrite rd_length by exact Ib; lia|exact S1].
    unfold ret. f_equal. f_equal. f_equal. f_equal. f_equal. unfold PwModel.x_dot_of, put_last, put_first, all_but_first.
    replace (slice n (M * n) (rd (m ++ l) y)) with (skipn n (rd (m ++ l) y)) in *.
    2:{ unfold slice. rewrite firstn_all2; [reflexivity|]. rewrite skipn_length, rd_length by exact Iy. lia. }
    now rewrite S1.
  Qed.

  Lemma x_dot_length y b : length y = (M * n)%nat -> length b = n -> length (PwModel.x_dot_of n (rd m x) y b) = (M * n)%nat.
  Proof.
    intros Ly Lb. pose proof n_le. pose proof len_x. unfold PwModel.x_dot_of, put_last, put_first, all_but_first.
    assert (E : length (set_slice 0 (skipn n y) (rd m x)) = (M * n)%nat) by (rewrite set_slice_length; rewrite ?skipn_length; lia).
    rewrite set_slice_length; rewrite E; lia.
  Qed.

  (** The block of x' built from y and b, after the blocks l. *)
  Notation D y b := {| c_type := D_float; c_val := PwModel.x_dot_of n (rd m x) y b |}.

  Lemma m_nil : m = m ++ []. Proof. symmetry. apply app_nil_r. Qed.
  Lemma x_dot_first y b : in_memory m y -> in_memory m b -> a_len y = (M * n)%nat -> a_len b = n ->
    x_dot_of x (slices_of (M * n) n) y b m = Ok (head_arr m (M * n), m ++ [D (rd m y) (rd m b)]).
  Proof. intros. pose proof (x_dot_ok [] y b) as P. rewrite !app_nil_r in P. now apply P. Qed.

  Lemma euler_ok : returns_new m (euler_accel_restr x x_n a dt) (PwModel.euler_accel_restr (rd m x) (rd m x_n) (rd m a) (rd m a_n) dt).
  Proof.
    apply (returns_ok m [D (rd m x) (rd m a)]). unfold euler_accel_restr, mbind.
    rewrite (order_ok x a M n) by auto. rewrite (index_div_ok x M n) by auto. rewrite x_dot_first by auto.
    unfold get. rewrite !rd_app by auto. rewrite rd_head by (apply x_dot_length; rewrite rd_length; auto). cbn [c_val].
    unfold PwModel.euler_accel_restr. rewrite (pw_order M n) by (rewrite ?rd_length; auto). reflexivity.
  Qed.

  Lemma two_dots : forall (k : arr -> arr -> com arr),
    mbind (x_dot_of x (slices_of (M * n) n) x a) (fun x_d => mbind (x_dot_of x (slices_of (M * n) n) x_n a_n) (fun x_d_n => k x_d x_d_n)) m
    = k (head_arr m (M * n)) (head_arr (m ++ [D (rd m x) (rd m a)]) (M * n)) ((m ++ [D (rd m x) (rd m a)]) ++ [D (rd m x_n) (rd m a_n)]).
  Proof.
    intros k. unfold mbind. rewrite x_dot_first by auto.
    rewrite x_dot_ok by (auto; now apply in_app). rewrite !rd_app by auto. reflexivity.
  Qed.
  Lemma two_rd : let m2 := (m ++ [D (rd m x) (rd m a)]) ++ [D (rd m x_n) (rd m a_n)] in
    rd m2 (head_arr m (M * n)) = PwModel.x_dot_of n (rd m x) (rd m x) (rd m a) /\
    rd m2 (head_arr (m ++ [D (rd m x) (rd m a)]) (M * n)) = PwModel.x_dot_of n (rd m x) (rd m x_n) (rd m a_n).
  Proof.
    intros m2. unfold m2. split.
    - rewrite <- app_assoc. cbn [app]. now rewrite rd_head by (apply x_dot_length; rewrite rd_length; auto).
    - now rewrite rd_head by (apply x_dot_length; rewrite rd_length; auto).
  Qed.

  Lemma trapz_ok : returns_new m (trapz_accel_restr x x_n a a_n dt)
    (PwModel.trapz_accel_restr (rd m x) (rd m x_n) (rd m a) (rd m a_n) dt).
  Proof.
    apply (returns_ok m [D (rd m x) (rd m a); D (rd m x_n) (rd m a_n)]). unfold trapz_accel_restr.
    unfold mbind at 1. rewrite (order_ok x a M n) by auto. unfold mbind at 1. rewrite (index_div_ok x M n) by auto.
    rewrite two_dots. destruct two_rd as [E1 E2]. cbn zeta in E1, E2. unfold mbind, get. rewrite E1, E2.
    rewrite <- app_assoc. cbn [app]. rewrite !rd_app by auto.
    unfold PwModel.trapz_accel_restr. rewrite (pw_order M n) by (rewrite ?rd_length; auto). reflexivity.
  Qed.

  Lemma hs_half_eq : hs_half_x x x_n a a_n dt m
    = new (PwModel.hs_half_x (rd m x) (rd m x_n) (rd m a) (rd m a_n) dt) (m ++ [D (rd m x) (rd m a); D (rd m x_n) (rd m a_n)]).
  Proof.
    unfold hs_half_x. unfold mbind at 1. rewrite (order_ok x a M n) by auto. unfold mbind at 1. rewrite (index_div_ok x M n) by auto.
    rewrite two_dots. destruct two_rd as [E1 E2]. cbn zeta in E1, E2. unfold mbind, get. rewrite E1, E2.
    rewrite <- app_assoc. cbn [app]. rewrite !rd_app by auto.
    unfold PwModel.hs_half_x. rewrite (pw_order M n) by (rewrite ?rd_length; auto). reflexivity.
  Qed.
  Lemma hs_half_ok : returns_new m (hs_half_x x x_n a a_n dt)
    (PwModel.hs_half_x (rd m x) (rd m x_n) (rd m a) (rd m a_n) dt).
  Proof. exact (returns_ok _ _ _ _ hs_half_eq). Qed.
  Lemma hs_half_length : length (PwModel.hs_half_x (rd m x) (rd m x_n) (rd m a) (rd m a_n) dt) = (M * n)%nat.
  Proof.
    unfold PwModel.hs_half_x. rewrite (pw_order M n) by (rewrite ?rd_length; auto).
    rewrite vadd_length, vdivs_length, vadd_length, vscale_length, vsub_length, !x_dot_length by (rewrite rd_length; auto).
    rewrite !rd_length, Lx, Lxn by auto. lia.
  Qed.
End Straight.

Section Simpson.
  Variables (m : memory) (x x_n a a_n a_c : arr) (dt : R) (M n : nat).
  Hypothesis HM : (0 < M)%nat.
  Hypothesis Hn : (0 < n)%nat.
  Hypothesis Ix : in_memory m x.
  Hypothesis Ixn : in_memory m x_n.
  Hypothesis Ia : in_memory m a.
  Hypothesis Ian : in_memory m a_n.
  Hypothesis Iac : in_memory m a_c.
  Hypothesis Lx : a_len x = (M * n)%nat.
  Hypothesis Lxn : a_len x_n = (M * n)%nat.
  Hypothesis La : a_len a = n.
  Hypothesis Lan : a_len a_n = n.
  Hypothesis Lac : a_len a_c = n.
  Hypothesis Fx : floats m x.
  Notation D y b := {| c_type := D_float; c_val := PwModel.x_dot_of n (rd m x) y b |}.

  Lemma hs_ok : returns_new m (hs_accel_restr x x_n a a_n dt a_c)
    (PwModel.hs_accel_restr (rd m x) (rd m x_n) (rd m a) (rd m a_n) dt (rd m a_c)).
  Proof.
    set (m2 := (m ++ [D (rd m x) (rd m a)]) ++ [D (rd m x_n) (rd m a_n)]).
    assert (A2 : m2 = m ++ [D (rd m x) (rd m a); D (rd m x_n) (rd m a_n)]) by (unfold m2; now rewrite <- app_assoc).
    assert (I2 : forall v, in_memory m v -> in_memory m2 v) by (intros v Hv; rewrite A2; now apply in_app).
    assert (R2 : forall v, in_memory m v -> rd m2 v = rd m v) by (intros v Hv; rewrite A2; now apply rd_app).
    assert (F2 : floats m2 x) by (unfold floats; rewrite A2, cell_app by apply Ix; exact Fx).
    set (xc := PwModel.hs_half_x (rd m x) (rd m x_n) (rd m a) (rd m a_n) dt).
    assert (Lc : length xc = (M * n)%nat) by (apply hs_half_length with (M := M) (n := n); auto).
    set (m4 := m2 ++ [D (rd m x) (rd m a); D (rd m x_n) (rd m a_n)]).
    set (m5 := m4 ++ [{| c_type := D_float; c_val := xc |}]).
    assert (A5 : m5 = m ++ [D (rd m x) (rd m a); D (rd m x_n) (rd m a_n); D (rd m x) (rd m a); D (rd m x_n) (rd m a_n); {| c_type := D_float; c_val := xc |}]).
    { unfold m5, m4. rewrite A2, <- !app_assoc. reflexivity. }
    set (res := rd m x +v (dt / 6) *v (PwModel.x_dot_of n (rd m x) (rd m x) (rd m a) +v 4 *v PwModel.x_dot_of n (rd m x) xc (rd m a_c) +v PwModel.x_dot_of n (rd m x) (rd m x_n) (rd m a_n))).
    apply (returns_ok m [D (rd m x) (rd m a); D (rd m x_n) (rd m a_n); D (rd m x) (rd m a); D (rd m x_n) (rd m a_n); {| c_type := D_float; c_val := xc |}; D xc (rd m a_c); {| c_type := D_float; c_val := res |}]).
    unfold hs_accel_restr. unfold mbind at 1. rewrite (order_ok x a M n) by auto. unfold mbind at 1. rewrite (index_div_ok x M n) by auto.
    rewrite (two_dots m x x_n a a_n M n) by auto. destruct (two_rd m x x_n a a_n M n HM Hn Ix Ixn Ia Ian Lx Lxn La Lan) as [E1 E2]. cbn zeta in E1, E2. fold m2 in E1, E2 |- *.
    unfold mbind at 1. rewrite (hs_half_eq m2 x x_n a a_n dt M n) by auto. rewrite !R2 by auto. fold xc m4.
    unfold new at 1. fold m5.
    assert (Ic : in_memory m5 {| a_buf := length m4; a_off := 0; a_len := length xc |}) by (apply (head_in m4); reflexivity).
    assert (Rc : rd m5 {| a_buf := length m4; a_off := 0; a_len := length xc |} = xc) by (apply (rd_head m4); reflexivity).
    assert (I5 : forall v, in_memory m v -> in_memory m5 v) by (intros v Hv; rewrite A5; now apply in_app).
    assert (R5 : forall v, in_memory m v -> rd m5 v = rd m v) by (intros v Hv; rewrite A5; now apply rd_app).
    unfold mbind at 1. rewrite A5 in *.
    rewrite (x_dot_ok m x x_n a a_n M n) by (auto; rewrite ?rd_app; auto).
    rewrite Rc. rewrite !R5 by auto. rewrite <- app_assoc. cbn [app].
    unfold mbind, get. rewrite !(rd_app m) by auto.
    set (lall := [D (rd m x) (rd m a); D (rd m x_n) (rd m a_n); D (rd m x) (rd m a); D (rd m x_n) (rd m a_n); {| c_type := D_float; c_val := xc |}; D xc (rd m a_c)]).
    assert (V1 : rd (m ++ lall) (head_arr m (M * n)) = PwModel.x_dot_of n (rd m x) (rd m x) (rd m a)).
    { unfold lall. rewrite rd_head; [reflexivity|]. cbn [c_val]. apply x_dot_length with (M := M) (x_n := x_n) (a := a) (a_n := a_n); rewrite ?rd_length; auto. }
    assert (V2 : rd (m ++ lall) (head_arr (m ++ [D (rd m x) (rd m a)]) (M * n)) = PwModel.x_dot_of n (rd m x) (rd m x_n) (rd m a_n)).
    { unfold lall. change (m ++ ?h :: ?t) with (m ++ [h] ++ t). rewrite app_assoc. rewrite rd_head; [reflexivity|].
      cbn [c_val]. apply x_dot_length with (M := M) (x_n := x_n) (a := a) (a_n := a_n); rewrite ?rd_length; auto. }
    assert (V3 : rd (m ++ lall) (head_arr (m ++ [D (rd m x) (rd m a); D (rd m x_n) (rd m a_n); D (rd m x) (rd m a); D (rd m x_n) (rd m a_n);
      {| c_type := D_float; c_val := xc |}]) (M * n)) = PwModel.x_dot_of n (rd m x) xc (rd m a_c)).
    { unfold lall. change (?h1 :: ?h2 :: ?h3 :: ?h4 :: ?h5 :: ?t) with ([h1; h2; h3; h4; h5] ++ t). rewrite app_assoc. rewrite rd_head; [reflexivity|].
      cbn [c_val]. apply x_dot_length with (M := M) (x_n := x_n) (a := a) (a_n := a_n); rewrite ?rd_length; auto. }
    rewrite V1, V2, V3. fold res.
    destruct (new_ok m lall res) as (r & -> & Vr & _). rewrite Vr. rewrite (rd_app m) by auto.
    replace ((m ++ lall) ++ [{| c_type := D_float; c_val := res |}]) with (m ++ lall ++ [{| c_type := D_float; c_val := res |}]) by apply app_assoc.
    unfold PwModel.hs_accel_restr. rewrite (pw_order M n) by (rewrite ?rd_length; auto). reflexivity.
  Qed.
End Simpson.

(** ** The schemes designed for second order *)
Lemma slice_last {A} (l : list A) n : (0 < n)%nat -> length l = (2 * n)%nat -> slice (2 * n - n) (2 * n) l = lastn n l.
Proof.
  intros H L. unfold slice, lastn. destruct (Nat.eqb_spec n 0); [lia|]. rewrite L. apply firstn_all2. rewrite skipn_length. lia.
Qed.
Lemma slice_first {A} (l : list A) n : slice 0 n l = firstn n l.
Proof. unfold slice. cbn [skipn]. now rewrite Nat.sub_0_r. Qed.
Lemma half_dim (v : vec) n : length v = (2 * n)%nat -> (vec_len v / 2)%nat = n.
Proof. intros L. unfold vec_len. rewrite L, Nat.mul_comm. apply Nat.div_mul. lia. Qed.

Section Second.
  Variables (share : bool) (m : memory) (x x_n a a_n a_c : arr) (dt : R) (n : nat).
  Hypothesis Hn : (0 < n)%nat.
  Hypothesis Ix : in_memory m x.
  Hypothesis Ixn : in_memory m x_n.
  Hypothesis Ia : in_memory m a.
  Hypothesis Ian : in_memory m a_n.
  Hypothesis Iac : in_memory m a_c.
  Hypothesis Lx : a_len x = (2 * n)%nat.
  Hypothesis Lxn : a_len x_n = (2 * n)%nat.
  Hypothesis La : a_len a = n.
  Hypothesis Lan : a_len a_n = n.
  Hypothesis Lac : a_len a_c = n.
  Hypothesis Fx : floats m x.
  Notation cellf w := {| c_type := D_float; c_val := w |}.

  Lemma copy_x : copy_arr x m = Ok (head_arr m (2 * n), m ++ [cellf (rd m x)]).
  Proof. rewrite copy_head, Lx. unfold floats in Fx. now rewrite Fx. Qed.
  Lemma idx : forall m', index_div x 2 m' = Ok (slices_of (2 * n) n, m').
  Proof. intros m'. apply index_div_ok; auto; lia. Qed.
  Lemma l1 : length (rd m x) = (2 * n)%nat. Proof. now rewrite rd_length. Qed.
  Lemma l2 : length (rd m x_n) = (2 * n)%nat. Proof. now rewrite rd_length. Qed.
  Lemma l3 : length (rd m a) = n. Proof. now rewrite rd_length. Qed.
  Lemma l4 : length (rd m a_n) = n. Proof. now rewrite rd_length. Qed.
  Lemma l5 : length (rd m a_c) = n. Proof. now rewrite rd_length. Qed.
  Lemma l6 (v : vec) : length v = (2 * n)%nat -> length (lastn n v) = n. Proof. intros L. rewrite lastn_length; lia. Qed.
  Lemma l7 (v : vec) : length v = (2 * n)%nat -> length (firstn n v) = n. Proof. intros L. rewrite firstn_length; lia. Qed.

  (** Writing the two halves of the copy, in one order or in the other. *)
  Lemma put_both w1 w2 (val : vec) l : length w1 = n -> length w2 = n -> length val = (2 * n)%nat ->
    put_at (head_arr m (2 * n)) (2 * n - n, 2 * n)%nat w1 (m ++ cellf val :: l)
      = Ok (tt, m ++ cellf (put_last n w1 val) :: l) /\
    put_at (head_arr m (2 * n)) (0, n)%nat w2 (m ++ cellf val :: l)
      = Ok (tt, m ++ cellf (put_first n w2 val) :: l) /\
    length (put_last n w1 val) = (2 * n)%nat /\ length (put_first n w2 val) = (2 * n)%nat.
  Proof.
    intros L1 L2 LV. unfold put_last, put_first. rewrite !LV. split; [|split; [|split]].
    - apply put_head; lia.
    - apply put_head; lia.
    - rewrite set_slice_length; lia.
    - rewrite set_slice_length; lia.
  Qed.
  Lemma end_new l w (X : vec) : length X = (2 * n)%nat ->
    rd (m ++ cellf X :: l) (head_arr m (2 * n)) = X /\ returns_new m (fun _ => new w (m ++ cellf X :: l)) w.
  Proof. intros L. split; [now rewrite rd_head|]. now apply (returns_ok m (cellf X :: l)). Qed.
  Lemma end_copy l (X : vec) c : length X = (2 * n)%nat -> c m = Ok (head_arr m (2 * n), m ++ cellf X :: l) -> returns_new m c X.
  Proof.
    intros L E. exists (head_arr m (2 * n)), (m ++ cellf X :: l). split; [exact E|]. split; [now rewrite rd_head|].
    split; [now apply head_in|]. split; [cbn; lia|]. eexists. reflexivity.
  Qed.

  Ltac len := repeat (rewrite ?vadd_length, ?vsub_length, ?vscale_length, ?vdivs_length); rewrite ?l3, ?l4, ?l5, ?(l6 _ l1), ?(l7 _ l1), ?(l6 _ l2), ?(l7 _ l2); try lia.

  Lemma trapz_mod_ok : returns_new m (trapz_mod_accel_restr x x_n a a_n dt)
    (PwModel.trapz_mod_accel_restr (rd m x) (rd m x_n) (rd m a) (rd m a_n) dt).
  Proof.
    set (w1 := lastn n (rd m x) +v (dt / 2) *v (rd m a +v rd m a_n)).
    set (w2 := firstn n (rd m x) +v dt *v lastn n (rd m x) +v (dt ^ 2 / 6) *v (rd m a_n +v 2 *v rd m a)).
    assert (L1 : length w1 = n) by (unfold w1; len). assert (L2 : length w2 = n) by (unfold w2; len).
    destruct (put_both w1 w2 (rd m x) [] L1 L2 l1) as (P1 & _ & Q1 & _).
    destruct (put_both w1 w2 (put_last n w1 (rd m x)) [] L1 L2 Q1) as (_ & P2 & _ & Q2).
    apply (returns_ok m [cellf (put_first n w2 (put_last n w1 (rd m x)))]).
    unfold trapz_mod_accel_restr, mbind. rewrite copy_x, idx. unfold get at 1 2 3. unfold get_at. unfold get at 1 2 3 4. cbn [slices_of s_first s_last].
    rewrite !(rd_app m) by (auto; apply part_in; auto; lia). rewrite !rd_part by lia. rewrite slice_last by (try apply l1; lia).
    fold w1. rewrite P1. rewrite !(rd_app m) by (auto; apply part_in; auto; lia). rewrite !rd_part by lia. rewrite slice_last, slice_first by (try apply l1; lia).
    fold w2. rewrite P2. unfold get. rewrite rd_head by exact Q2. cbn [c_val].
    unfold PwModel.trapz_mod_accel_restr. rewrite (half_dim _ n l1). reflexivity.
  Qed.

  (** The two cuts of x after the copy, which keep their values. *)
  Lemma cut_two l : exists q v l', 
    cut share x (0, n)%nat (m ++ cellf (rd m x) :: l) = Ok (q, m ++ cellf (rd m x) :: fst l') /\
    cut share x (2 * n - n, 2 * n)%nat (m ++ cellf (rd m x) :: fst l') = Ok (v, m ++ cellf (rd m x) :: snd l') /\
    (forall c' k, rd (m ++ c' :: (snd l' ++ k)) q = firstn n (rd m x)) /\
    (forall c' k, rd (m ++ c' :: (snd l' ++ k)) v = lastn n (rd m x)).
  Proof.
    destruct (cut_after share m (cellf (rd m x)) l x 0 n Ix) as (q & k1 & E1 & V1); [lia|lia|].
    destruct (cut_after share m (cellf (rd m x)) (l ++ k1) x (2 * n - n) (2 * n) Ix) as (v & k2 & E2 & V2); [lia|lia|].
    exists q, v, (l ++ k1, (l ++ k1) ++ k2). cbn [fst snd]. split; [exact E1|]. split; [exact E2|]. split; intros c' k.
    - rewrite <- app_assoc. rewrite V1. apply slice_first.
    - rewrite V2. apply slice_last; [exact Hn|apply l1].
  Qed.

  Lemma mod_restr w1 w2 (c : com arr) l : length w1 = n -> length w2 = n ->
    c m = new (rd m x_n -v put_first n w2 (put_last n w1 (rd m x))) (m ++ cellf (put_first n w2 (put_last n w1 (rd m x))) :: l) ->
    returns_new m c (rd m x_n -v put_first n w2 (put_last n w1 (rd m x))).
  Proof. intros L1 L2 E. apply (returns_ok m (cellf (put_first n w2 (put_last n w1 (rd m x))) :: l)). exact E. Qed.

  Lemma hs_mod_ok : returns_new m (hs_mod_accel_restr share x x_n a a_n dt a_c)
    (PwModel.hs_mod_accel_restr (rd m x) (rd m x_n) (rd m a) (rd m a_n) dt (rd m a_c)).
  Proof.
    set (w1 := lastn n (rd m x) +v (dt / 6) *v (rd m a +v 4 *v rd m a_c +v rd m a_n)).
    set (w2 := firstn n (rd m x) +v dt *v lastn n (rd m x) +v (dt ^ 2 / 6) *v (rd m a +v 2 *v rd m a_c)).
    assert (L1 : length w1 = n) by (unfold w1; len). assert (L2 : length w2 = n) by (unfold w2; len).
    destruct (cut_two []) as (q & v & (k1 & k2) & C1 & C2 & Vq & Vv). cbn [fst snd] in *.
    destruct (put_both w1 w2 (rd m x) k2 L1 L2 l1) as (P1 & _ & Q1 & _).
    destruct (put_both w1 w2 (put_last n w1 (rd m x)) k2 L1 L2 Q1) as (_ & P2 & _ & Q2).
    replace (PwModel.hs_mod_accel_restr (rd m x) (rd m x_n) (rd m a) (rd m a_n) dt (rd m a_c))
      with (rd m x_n -v put_first n w2 (put_last n w1 (rd m x))) by (unfold PwModel.hs_mod_accel_restr; rewrite (half_dim _ n l1); reflexivity).
    apply (mod_restr w1 w2 _ k2 L1 L2).
    unfold hs_mod_accel_restr, mbind. rewrite copy_x, idx. cbn [slices_of s_first s_last]. rewrite C1, C2.
    assert (Vv' : forall c', rd (m ++ c' :: k2) v = lastn n (rd m x)) by (intros c'; rewrite <- (app_nil_r k2); apply Vv).
    assert (Vq' : forall c', rd (m ++ c' :: k2) q = firstn n (rd m x)) by (intros c'; rewrite <- (app_nil_r k2); apply Vq).
    unfold get. rewrite Vv'. rewrite !(rd_app m) by auto. fold w1. rewrite P1. rewrite Vq', Vv'. fold w2. rewrite P2.
    rewrite !(rd_app m) by auto. rewrite rd_head by exact Q2. reflexivity.
  Qed.
  Lemma hsj_ok : returns_new m (hsj_accel_restr share x x_n a a_n dt a_c)
    (PwModel.hsj_accel_restr (rd m x) (rd m x_n) (rd m a) (rd m a_n) dt (rd m a_c)).
  Proof.
    set (w1 := lastn n (rd m x) +v (dt / 36) *v (3 *v rd m a +v 25 *v rd m a_c +v 8 *v rd m a_n)).
    set (w2 := firstn n (rd m x) +v dt *v lastn n (rd m x) +v (dt ^ 2 / 72) *v (9 *v rd m a +v 25 *v rd m a_c +v 2 *v rd m a_n)).
    assert (L1 : length w1 = n) by (unfold w1; len). assert (L2 : length w2 = n) by (unfold w2; len).
    destruct (cut_two []) as (q & v & (k1 & k2) & C1 & C2 & Vq & Vv). cbn [fst snd] in *.
    destruct (put_both w1 w2 (rd m x) k2 L1 L2 l1) as (P1 & _ & Q1 & _).
    destruct (put_both w1 w2 (put_last n w1 (rd m x)) k2 L1 L2 Q1) as (_ & P2 & _ & Q2).
    replace (PwModel.hsj_accel_restr (rd m x) (rd m x_n) (rd m a) (rd m a_n) dt (rd m a_c))
      with (rd m x_n -v put_first n w2 (put_last n w1 (rd m x))) by (unfold PwModel.hsj_accel_restr; rewrite (half_dim _ n l1); reflexivity).
    apply (mod_restr w1 w2 _ k2 L1 L2).
    unfold hsj_accel_restr, mbind. rewrite copy_x, idx. cbn [slices_of s_first s_last]. rewrite C1, C2.
    assert (Vv' : forall c', rd (m ++ c' :: k2) v = lastn n (rd m x)) by (intros c'; rewrite <- (app_nil_r k2); apply Vv).
    assert (Vq' : forall c', rd (m ++ c' :: k2) q = firstn n (rd m x)) by (intros c'; rewrite <- (app_nil_r k2); apply Vq).
    unfold get. rewrite Vv'. rewrite !(rd_app m) by auto. fold w1. rewrite P1. rewrite Vq', Vv'. fold w2. rewrite P2.
    rewrite !(rd_app m) by auto. rewrite rd_head by exact Q2. reflexivity.
  Qed.

  (** The half points: q_c and v_c are new arrays, copied into x_c. *)
  Lemma half_end w2 w1 l (k : com arr) : length w1 = n -> length w2 = n ->
    k m = mbind (new w2) (fun q_c => mbind (new w1) (fun v_c =>
      mbind (get q_c) (fun w => mbind (put_at (head_arr m (2 * n)) (0, n)%nat w) (fun _ =>
      mbind (get v_c) (fun w => mbind (put_at (head_arr m (2 * n)) (2 * n - n, 2 * n)%nat w) (fun _ => ret (head_arr m (2 * n)))))))) (m ++ cellf (rd m x) :: l) ->
    returns_new m k (put_last n w1 (put_first n w2 (rd m x))).
  Proof.
    intros L1 L2 E. unfold mbind in E.
    destruct (new_after m (cellf (rd m x)) l w2) as (r2 & E2 & V2 & _). rewrite E2 in E.
    destruct (new_after m (cellf (rd m x)) (l ++ [cellf w2]) w1) as (r1 & E1 & V1 & _). rewrite E1 in E.
    unfold get in E. rewrite V2 in E.
    destruct (put_both w1 w2 (rd m x) ((l ++ [cellf w2]) ++ [cellf w1]) L1 L2 l1) as (_ & P1 & _ & Q1). rewrite P1 in E.
    replace ((l ++ [cellf w2]) ++ [cellf w1]) with (((l ++ [cellf w2]) ++ [cellf w1]) ++ []) in E by apply app_nil_r. rewrite V1 in E.
    destruct (put_both w1 w2 (put_first n w2 (rd m x)) (((l ++ [cellf w2]) ++ [cellf w1]) ++ []) L1 L2 Q1) as (P2 & _ & Q2 & _). rewrite P2 in E.
    apply (end_copy _ _ _ Q2 E).
  Qed.

  Lemma hs_mod_half_ok : returns_new m (hs_mod_half_x share x x_n a a_n dt)
    (PwModel.hs_mod_half_x (rd m x) (rd m x_n) (rd m a) (rd m a_n) dt).
  Proof.
    unfold PwModel.hs_mod_half_x. rewrite (half_dim _ n l1). cbn zeta. unfold get_first, get_last.
    destruct (cut_two []) as (q & v & (k1 & k2) & C1 & C2 & Vq & Vv). cbn [fst snd] in *.
    destruct (cut_after share m (cellf (rd m x)) k2 x_n (2 * n - n) (2 * n) Ixn) as (vn & k3 & C3 & V3); [lia|lia|].
    apply (half_end _ _ (k2 ++ k3)); [len|len|].
    unfold hs_mod_half_x. unfold mbind at 1 2 3 4 5. rewrite copy_x, idx. cbn [slices_of s_first s_last]. rewrite C1, C2, C3.
    unfold mbind at 1 2 3 4 5. unfold get at 1 2 3 4 5.
    rewrite Vq, Vv. replace (k2 ++ k3) with ((k2 ++ k3) ++ []) by apply app_nil_r. rewrite V3.
    rewrite slice_last by (auto; apply l2). rewrite !(rd_app m) by auto. reflexivity.
  Qed.
  Lemma hsj_half_ok : returns_new m (hsj_half_x share x x_n a a_n dt)
    (PwModel.hsj_half_x (rd m x) (rd m x_n) (rd m a) (rd m a_n) dt).
  Proof.
    unfold PwModel.hsj_half_x. rewrite (half_dim _ n l1). cbn zeta. unfold get_first, get_last.
    destruct (cut_two []) as (q & v & (k1 & k2) & C1 & C2 & Vq & Vv). cbn [fst snd] in *.
    destruct (cut_after share m (cellf (rd m x)) k2 x_n 0 n Ixn) as (qn & k3 & C3 & V3); [lia|lia|].
    destruct (cut_after share m (cellf (rd m x)) (k2 ++ k3) x_n (2 * n - n) (2 * n) Ixn) as (vn & k4 & C4 & V4); [lia|lia|].
    apply (half_end _ _ ((k2 ++ k3) ++ k4)); [len|len|].
    unfold hsj_half_x. unfold mbind at 1 2 3 4 5 6. rewrite copy_x, idx. cbn [slices_of s_first s_last]. rewrite C1, C2, C3, C4.
    unfold mbind at 1 2 3 4 5 6. unfold get at 1 2 3 4 5 6.
    rewrite V3. rewrite <- app_assoc. rewrite Vq, Vv. rewrite app_assoc.
    replace ((k2 ++ k3) ++ k4) with (((k2 ++ k3) ++ k4) ++ []) by apply app_nil_r. rewrite V4.
    rewrite slice_last, slice_first by (auto; apply l2). rewrite !(rd_app m) by auto. reflexivity.
  Qed.
End Second.
