(** Property C16, further parts: expand_G, and the layouts of the arrays that the
    dynamics can return.  Only statements; specification: PwExpandSpec.v. *)
From Verif Require Import Prelude Mat PwModel PwExpandModel PwExpandSpec PwExpandProofs.
Open Scope R_scope.
Open Scope list_scope.

(** ** C16  expand_G *)

(** expand_G is right for order 2: all blocks but the first, then the accelerations. *)
Theorem C16_G_numpy_partial :
  forall P (G : list vec -> vec -> P -> vec) n p x u, length x = (2 * n)%nat -> length (G (blocks 2 n x) u p) = n ->
  expand_G G 2 x u p = Ok (skipn n x ++ G (blocks 2 n x) u p).
Proof. exact @expand_G_order2. Qed.
Print Assumptions C16_G_numpy_partial.
Example C16_G_numpy_ex : expand_G (fun qs u _ => match qs with [q; v] => vsub u q | _ => [] end) 2 [1; 2; 3; 4] [5; 5] tt = Ok [3; 4; 5 - 1; 5 - 2].
Proof. rewrite (C16_G_numpy_partial unit _ 2) by reflexivity. reflexivity. Qed.

(** For any other order it raises, although there is an argument for the order. *)
Theorem C16_G_order_refuted :
  forall P (G : list vec -> vec -> P -> vec) M n p, (0 < M)%nat -> (0 < n)%nat -> forall x u,
  M <> 2%nat -> ~ (M = 1 /\ n = 1)%nat -> length x = (M * n)%nat -> length (G (blocks M n x) u p) = n ->
  expand_G G M x u p = Err AssertionError.
Proof. exact @expand_G_other. Qed.
Print Assumptions C16_G_order_refuted.
Example C16_G_order_ex : expand_G (fun qs _ _ => hd [] qs) 3 [1; 2; 3] [] tt = Err AssertionError.
Proof. apply (C16_G_order_refuted unit _ 3 1); try reflexivity; lia. Qed.

(** With one coordinate and order 1 there is no exception: the result has one
    number too many, the state itself before its derivative. *)
Theorem C16_G_one_refuted :
  forall P (G : list vec -> vec -> P -> vec) p a u r, G [[a]] u p = [r] -> expand_G G 1 [a] u p = Ok [a; r].
Proof. exact @expand_G_one. Qed.
Print Assumptions C16_G_one_refuted.
Example C16_G_one_ex : expand_G (fun qs _ _ => vscale 2 (hd [] qs)) 1 [3] [] tt = Ok [3; 2 * 3].
Proof. apply C16_G_one_refuted. reflexivity. Qed.

(** casadi mode is right exactly for order 2, and for one coordinate of order 3. *)
Theorem C16_G_casadi_exactly_partial :
  forall P (G : list vec -> vec -> P -> vec) M n p, (0 < M)%nat -> (0 < n)%nat -> forall x u, length x = (M * n)%nat ->
  (expand_G_cas G M x u p = skipn n x ++ G (blocks M n x) u p <-> (M = 2 \/ (M = 3 /\ n = 1))%nat).
Proof. exact @expand_G_casadi. Qed.
Print Assumptions C16_G_casadi_exactly_partial.
Example C16_G_casadi_ex : expand_G_cas (fun qs _ _ => hd [] qs) 3 [1; 2; 3; 4; 5; 6] [] tt <> [3; 4; 5; 6] ++ [1; 2].
Proof.
  intros E. destruct (C16_G_casadi_exactly_partial unit (fun qs _ _ => hd [] qs) 3 2 tt ltac:(lia) ltac:(lia) [1; 2; 3; 4; 5; 6] [] eq_refl) as [H _].
  destruct (H E) as [C|[_ C]]; discriminate C.
Qed.

(** ** C16  numpy mode and the arrays the dynamics return *)

(** One state of order 2: exactly the 1-D arrays of n accelerations, or a number
    when n is one, are accepted. *)
Theorem C16_layouts_partial :
  forall P (F : vec -> vec -> P -> out) n x u p r, length x = (2 * n)%nat ->
  (expand_F_1d F 2 x u p = Ok r <-> exists a, length a = n /\ layout_1d a (F x u p) /\ r = skipn n x ++ a).
Proof. exact @one_state. Qed.
Print Assumptions C16_layouts_partial.
Example C16_layouts_ex : expand_F_1d (fun x _ _ => A0 (- vnth x 0)) 2 [3; 4] [] tt = Ok [4; - 3] /\
  forall r, expand_F_1d (fun x _ _ => A2 [[vnth x 0]]) 2 [3; 4] [] tt <> Ok r.
Proof.
  split.
  - apply (C16_layouts_partial unit (fun x _ _ => A0 (- vnth x 0)) 1 [3; 4]); [reflexivity|]. exists [- 3]. repeat split. right. exists (- 3). split; reflexivity.
  - intros r E. apply (C16_layouts_partial unit _ 1 [3; 4]) in E; [|reflexivity]. destruct E as (a & _ & [C|(s & _ & C)] & _); discriminate C.
Qed.

(** An array of N states of order 2: exactly one acceleration array per state is
    accepted, in any of its layouts, and each row of the result is what the row
    alone gives. *)
Theorem C16_samples_partial :
  forall P (F : mat -> mat -> P -> out) N n x u p r, (0 < N)%nat -> (0 < n)%nat -> wide N (2 * n) x ->
  (expand_F_2d F 2 x u p = Ok r <->
   exists A, wide N n A /\ layout_2d N n A (F x u p) /\ r = beside (map (skipn n) x) A).
Proof. exact @states. Qed.
Print Assumptions C16_samples_partial.
Example C16_samples_ex : expand_F_2d (fun x _ _ => A1 (map (fun r => - vnth r 0) x)) 2 [[3; 4]; [5; 6]; [7; 8]] [] tt = Ok [[4; - 3]; [6; - 5]; [8; - 7]].
Proof.
  apply (C16_samples_partial unit _ 3 1); [lia|lia|repeat constructor|]. exists [[- 3]; [- 5]; [- 7]]. repeat split; [repeat constructor|].
  right. left. split; [right; reflexivity|reflexivity].
Qed.

(** Any other order raises, for one state and for an array of states. *)
Theorem C16_layouts_order_refuted :
  forall P (F : vec -> vec -> P -> out) M n x u p a, (0 < M)%nat -> M <> 2%nat -> (0 < n)%nat ->
  length x = (M * n)%nat -> length a = n -> layout_1d a (F x u p) -> expand_F_1d F M x u p = Err AssertionError.
Proof. exact @one_state_other. Qed.
Print Assumptions C16_layouts_order_refuted.
Theorem C16_samples_order_refuted :
  forall P (F : mat -> mat -> P -> out) M N n x u p A, (0 < M)%nat -> M <> 2%nat -> (0 < N)%nat -> (0 < n)%nat ->
  wide N (M * n) x -> wide N n A -> layout_2d N n A (F x u p) -> expand_F_2d F M x u p = Err AssertionError.
Proof. exact @states_other. Qed.
Print Assumptions C16_samples_order_refuted.
Example C16_order_ex : expand_F_1d (fun x _ _ => A0 (vnth x 0)) 3 [1; 2; 3] [] tt = Err AssertionError /\
  expand_F_2d (fun x _ _ => A2 (map (firstn 1) x)) 3 [[1; 2; 3]; [4; 5; 6]] [] tt = Err AssertionError.
Proof.
  split.
  - apply (C16_layouts_order_refuted unit _ 3 1 _ _ _ [1]); try reflexivity; try lia. right. exists 1. split; reflexivity.
  - apply (C16_samples_order_refuted unit _ 3 2 1 _ _ _ [[1]; [4]]); try lia; [split|split|left]; try reflexivity; repeat constructor.
Qed.
