(** Proofs about restrictions called with arrays of integers. *)
From Verif Require Import Prelude PreludeFacts PwModel PwFacts NumpyModel NumpyProofs MemModel MemSpec MemProofs.
Open Scope list_scope.
Open Scope R_scope.

Lemma put_head_any t m n lo hi w val l : (lo <= hi)%nat -> (hi <= n)%nat -> length w = (hi - lo)%nat -> length val = n ->
  put_at (head_arr m n) (lo, hi) w (m ++ {| c_type := t; c_val := val |} :: l)
  = Ok (tt, m ++ {| c_type := t; c_val := set_slice lo (map (store t) w) val |} :: l).
Proof.
  intros LH H L LV. unfold put_at, put. cbn [part head_arr a_buf a_off a_len fst snd].
  replace (if (length w =? 1)%nat then repeat (vnth w 0) (hi - lo) else w) with w.
  2:{ destruct (Nat.eqb_spec (length w) 1); [|reflexivity]. destruct w as [|r [|]]; cbn [length] in *; try lia. rewrite <- L. reflexivity. }
  rewrite L, Nat.eqb_refl. rewrite cell_head by reflexivity. cbn [c_type c_val].
  change (0 + lo)%nat with lo. now rewrite set_head.
Qed.

Section Integers.
  Variables (m : memory) (x x_n a : arr) (dt : R) (M n : nat).
  Hypothesis HM : (0 < M)%nat.
  Hypothesis Hn : (0 < n)%nat.
  Hypothesis Ix : in_memory m x.
  Hypothesis Ixn : in_memory m x_n.
  Hypothesis Ia : in_memory m a.
  Hypothesis Lx : a_len x = (M * n)%nat.
  Hypothesis Lxn : a_len x_n = (M * n)%nat.
  Hypothesis La : a_len a = n.
  Hypothesis Tx : c_type (cell_of m x) = D_int.
  Hypothesis Vx : forall r, In r (rd m x) -> truncate r = r.

  Lemma euler_int_ok : returns_new m (euler_accel_restr x x_n a dt)
    (PwModel.euler_accel_restr (rd m x) (rd m x_n) (map truncate (rd m a)) (rd m a) dt).
  Proof.
    assert (NL : (n <= M * n)%nat) by nia.
    assert (LX : length (rd m x) = (M * n)%nat) by (rewrite rd_length; auto).
    apply (returns_ok m [{| c_type := D_int; c_val := PwModel.x_dot_of n (rd m x) (rd m x) (map truncate (rd m a)) |}]).
    unfold euler_accel_restr, mbind. rewrite (order_ok x a M n) by auto. rewrite (index_div_ok x M n) by auto.
    unfold x_dot_of, mbind. rewrite copy_head, Lx, Tx. unfold get_at, get. cbn [slices_of s_abf s_abl s_last].
    rewrite rd_app by (apply part_in; auto; lia). rewrite rd_part by lia.
    assert (Ly' : length (slice n (M * n) (rd m x)) = (M * n - n)%nat) by (rewrite slice_length, LX; lia).
    rewrite put_head_any; [|lia|lia|lia|exact LX].
    assert (K : map (store D_int) (slice n (M * n) (rd m x)) = skipn n (rd m x)).
    { unfold slice. rewrite firstn_all2 by (rewrite skipn_length; lia).
      rewrite <- (map_id (skipn n (rd m x))) at 2. apply map_ext_in. intros r Hr. cbn [store]. apply Vx.
      rewrite <- (firstn_skipn n (rd m x)). apply in_or_app. now right. }
    rewrite K. rewrite rd_app by exact Ia.
    assert (S1 : length (set_slice 0 (skipn n (rd m x)) (rd m x)) = (M * n)%nat)
      by (rewrite set_slice_length; rewrite ?skipn_length; lia).
    rewrite put_head_any; [|lia|lia|rewrite rd_length by exact Ia; lia|exact S1].
    change (map (store D_int) (rd m a)) with (map truncate (rd m a)).
    unfold ret. rewrite !rd_app by auto.
    assert (LT : length (map truncate (rd m a)) = n) by (rewrite map_length, rd_length; auto).
    assert (E : set_slice (M * n - n) (map truncate (rd m a)) (set_slice 0 (skipn n (rd m x)) (rd m x))
      = PwModel.x_dot_of n (rd m x) (rd m x) (map truncate (rd m a))).
    { unfold PwModel.x_dot_of, put_last, put_first, all_but_first. now rewrite S1. }
    rewrite E. rewrite rd_head.
    - cbn [c_val]. unfold PwModel.euler_accel_restr. rewrite (pw_order M n) by auto. reflexivity.
    - cbn [c_val]. rewrite <- E. rewrite set_slice_length; [exact S1|rewrite S1; lia].
  Qed.
End Integers.

Definition int_memory : memory := [{| c_type := D_int; c_val := [0; 0] |}; {| c_type := D_float; c_val := [0; 0; 1 / 2] |}].
Definition int_x : arr := {| a_buf := 0; a_off := 0; a_len := 2 |}.
Definition int_x_n : arr := {| a_buf := 1; a_off := 0; a_len := 2 |}.
Definition int_a : arr := {| a_buf := 1; a_off := 2; a_len := 1 |}.
Lemma truncate_0 : truncate 0 = 0.
Proof. unfold truncate. destruct (Rle_dec 0 0); [|lra]. change 0 with (IZR 0) at 1. unfold Int_part. rewrite <- (tech_up 0 1); [reflexivity|lra|lra]. Qed.
Lemma integers_refuted : exists m x x_n a, in_memory m x /\ in_memory m x_n /\ in_memory m a /\ a_len x = 2%nat /\ a_len x_n = 2%nat /\ a_len a = 1%nat /\
  rd m x = [0; 0] /\ rd m x_n = [0; 0] /\ rd m a = [1 / 2] /\
  returns_new m (euler_accel_restr x x_n a 1) [0; 0] /\ ~ returns_new m (euler_accel_restr x x_n a 1) [0; - (1 / 2)].
Proof.
  exists int_memory, int_x, int_x_n, int_a.
  assert (I : in_memory int_memory int_x) by (split; cbn; lia). assert (In' : in_memory int_memory int_x_n) by (split; cbn; lia).
  assert (Ia : in_memory int_memory int_a) by (split; cbn; lia).
  assert (H : returns_new int_memory (euler_accel_restr int_x int_x_n int_a 1) [0; 0]).
  { pose proof (euler_int_ok int_memory int_x int_x_n int_a 1 2 1) as P.
    match type of P with _ -> _ -> _ -> _ -> _ -> _ -> _ -> _ -> _ -> _ -> returns_new _ _ ?v => replace v with [0; 0] in P end.
    - apply P; auto; try lia. intros r [<-|[<-|[]]]; apply truncate_0.
    - cbn -[truncate Rmult Rplus Rminus]. rewrite truncate_half. f_equal; [ring|]. f_equal. ring. }
  repeat (split; [assumption || reflexivity|]).
  intros (r & m' & E & W & _). destruct H as (r2 & m2 & E2 & W2 & _). rewrite E in E2. injection E2 as -> ->. rewrite W in W2.
  injection W2 as F. lra.
Qed.
