(** More systems for the examples on equations of motion. *)
From Coq Require Import String FunctionalExtensionality.
From Coquelicot Require Import Coquelicot.
From Verif Require Import Prelude PreludeFacts PwInterpModel SymModel SymSpec SymProofs LagrModel LagrSpec LagrFacts LagrProofs LagrAlgebra LagrReduceProofs LagrRhsProofs LagrMoreProofs LagrMotionProofs LagrExamples.
Open Scope R_scope.
Open Scope list_scope.

(** ** Equations for lagr_to_RHS: 2 q_0'' + cos(q_0), q_0'' + 2 q_1'' + q_1' *)
Definition two_eqs : list expr :=
  [Plus (Plus (Times (Num 2) (q_ 0 2)) (q_ 1 2)) (Func cosf 0 (q_ 0 0)); Plus (Plus (q_ 0 2) (Times (q_ 1 2) (Num 2))) (q_ 1 1)].
Definition two_orders : list (list atom) :=
  [[Dyn "q_0" 0; Dyn "q_1" 2; Dyn "q_0" 2]; [Dyn "q_0" 2; Dyn "q_1" 1; Dyn "q_1" 2]]%string.
Definition two_A (_ : env) (i j : nat) : R := if (i =? j)%nat then 2 else 1.
Definition two_c (rho : env) (i : nat) : R := match i with 0%nat => cosf 0 (rho (Static "q_0"%string)) | _ => rho (Static "v_1"%string) end.
Lemma two_linear : linear_in_acc (fun _ => True) 2 (map (rename symb_of) two_eqs) two_A two_c.
Proof.
  split; [auto|split].
  - intros rho i _ Hi. destruct i as [|[|i]]; [| |lia]; cbn -[cosf]; unfold two_A; cbn [Nat.eqb]; change (a_symb 0) with (Static "a_0"%string); change (a_symb 1) with (Static "a_1"%string); ring.
  - intros rho y i _ Hi. split; [|reflexivity]. destruct i as [|[|i]]; [| |lia]; reflexivity.
Qed.
Lemma two_outside i j : (i < 2)%nat -> (j < 2)%nat -> outside (a_symb j) (nth i (map (rename symb_of) two_eqs) (Num 0)).
Proof.
  intros Hi Hj. destruct i as [|[|i]]; [| |lia]; destruct j as [|[|j]]; try lia; cbn; repeat split; intros [H|[]]; discriminate H.
Qed.
Lemma two_order i : (i < 2)%nat -> Forall (fun a => is_dyn a = true) (nth i two_orders []) /\
  (forall a, In a (atoms (nth i two_eqs (Num 0))) -> is_dyn a = true -> In a (nth i two_orders [])).
Proof.
  intros Hi. destruct i as [|[|i]]; [| |lia]; (split; [apply Forall_forall; intros a Ha | intros a Ha _]); cbn in Ha; repeat destruct Ha as [Ha|Ha]; try contradiction; subst a; cbn; tauto.
Qed.
Lemma two_rhs : exists rhs, lagr_to_RHS inv2 two_orders two_eqs = Ok rhs /\ length rhs = 2%nat.
Proof. eexists. split; reflexivity. Qed.
Lemma two_invertible rho : exists N, inverse 2 (two_A rho) N.
Proof.
  exists (fun i j => if (i =? j)%nat then 2 / 3 else - / 3).
  split; intros i j Hi Hj; destruct i as [|[|i]], j as [|[|j]]; try lia; cbn; unfold two_A, delta; cbn; field.
Qed.
(** The same with coordinates numbered from 1: 2 q_1'' + q_1 *)
Lemma from_one : exists es, mapm (fun i => diff_to_symb_expr (nth i [[Dyn "q_1" 2; Dyn "q_1" 0]]%string []) (nth i [Plus (Times (Num 2) (q_ 1 2)) (q_ 1 0)] (Num 0))) (seq 0 1) = Ok es /\
  forall rho N, ~ inverse 1 (ev rho (coeff_mat es)) N.
Proof.
  eexists. split; [reflexivity|]. intros rho N [H _]. specialize (H 0%nat 0%nat ltac:(lia) ltac:(lia)). cbn in H. unfold delta in H. cbn in H. lra.
Qed.

(** ** Controls of the double pendulum *)
Definition pend_us : list atom := [Static "u_0"; Static "u_1"]%string.
Lemma pend_affine rho : affine_controls pend pend_us rho delta (fun _ => 0).
Proof.
  split; [|split].
  - constructor; [cbn; intros [H|[]]; discriminate H|]. constructor; [intros [] | constructor].
  - intros u [<-|[<-|[]]]; (split; [|left; eexists; reflexivity]); cbn; intros H; repeat destruct H as [H|H]; try contradiction; discriminate H.
  - intros v i Hi _. cbn in Hi. destruct i as [|[|i]]; [| |lia]; cbn; unfold delta; cbn; ring.
Qed.
Definition pinv2 (n k : nat) (A : emat) : emat := match inv2 n A with Ok N => N | Err _ => A end.
Lemma pend_pinv rho : let P := ev rho (pinv2 2 2 (pinv_E pend pend_us)) in
  (forall k l, (k < 2)%nat -> (l < 2)%nat -> rsum 2 (fun i => P k i * delta i l) = delta k l) /\
  (forall k l, (k < 2)%nat -> (l < 2)%nat -> rsum 2 (fun i => delta k i * P i l) = delta k l).
Proof.
  assert (E : forall i j, (i < 2)%nat -> (j < 2)%nat -> ev rho (pinv2 2 2 (pinv_E pend pend_us)) i j = delta i j).
  { intros i j Hi Hj.
    assert (A00 : eval rho (pinv_E pend pend_us 0%nat 0%nat) = 1) by (cbn -[cosf]; ring).
    assert (A01 : eval rho (pinv_E pend pend_us 0%nat 1%nat) = 0) by (cbn -[cosf]; ring).
    assert (A10 : eval rho (pinv_E pend pend_us 1%nat 0%nat) = 0) by (cbn -[cosf]; ring).
    assert (A11 : eval rho (pinv_E pend pend_us 1%nat 1%nat) = 1) by (cbn -[cosf]; ring).
    unfold ev, pinv2. cbn [inv2]. destruct i as [|[|i]], j as [|[|j]]; try lia; unfold det2, Minus, Neg; cbn [eval]; rewrite recip0, A00, A01, A10, A11; unfold delta; cbn [Nat.eqb]; field; lra. }
  cbv zeta. split; intros k l Hk Hl.
  - rewrite (rsum_ext 2 _ (fun i => delta k i * delta i l)) by (intros; now rewrite E).
    destruct k as [|[|k]], l as [|[|l]]; try lia; cbn; unfold delta; cbn; ring.
  - rewrite (rsum_ext 2 _ (fun i => delta k i * delta i l)) by (intros; now rewrite E).
    destruct k as [|[|k]], l as [|[|l]]; try lia; cbn; unfold delta; cbn; ring.
Qed.
Lemma track_implicit : NoDup (lg_qs track) /\ up_to 1 (lg_L track) /\ (forall i, no_acc (lg_qs track) (lg_forces track i)) /\
  (forall rho, smooth_at rho (lg_L track)) /\ (forall rho, smooth_at rho (nth 0 (lg_coneqs track) (Num 0))) /\
  (forall i, ~ In (x_name i) (lg_qs track)) /\ (forall k, ~ In ("lam" ++ str_nat (k + 1))%string (lg_qs track)) /\ exists l, implicit_dynamics_x track = Ok l.
Proof.
  split; [apply two_names|]. split; [apply L_free_up|]. split; [|split; [|split; [|split; [|split]]]].
  - intros i nm k _ _ H. cbn in H. destruct H as [H|[]]. discriminate H.
  - apply L_free_smooth.
  - intros rho. split; [split; [apply cosf_smooth; exact I | exact I] | exact I].
  - exact (proj2 q_2_x_names).
  - intros k [H|[H|[]]]; discriminate H.
  - eexists. reflexivity.
Qed.

(** Two coordinates called x_1 and x_0, the first on a spring. *)
Definition crossed : lagrange :=
  {| lg_L := Plus (Times (Num (/ 2)) (Plus (sq (Var (Dyn "x_1" 1))) (sq (Var (Dyn "x_0" 1))))) (Times (Num (- / 2)) (sq (Var (Dyn "x_1" 0))));
     lg_qs := ["x_1"; "x_0"]%string; lg_forces := fun _ => Num 0; lg_coneqs := [] |}.
Lemma crossed_wrong : NoDup (lg_qs crossed) /\ up_to 1 (lg_L crossed) /\ exists l rho, implicit_dynamics_x crossed = Ok l /\
  eval rho (nth 2 l (Num 0)) = 0 /\ eval (fun a => rho (x_for (lg_qs crossed) a)) (nth 0 (implicit_dynamics_q crossed) (Num 0)) = 1.
Proof.
  split; [repeat constructor; cbn; intuition discriminate|]. split.
  - intros nm k H. cbn in H. repeat (destruct H as [H|H]; [injection H as <- <-; lia|]). destruct H.
  - eexists. exists (fun a => if atom_eq_dec a (Dyn "x_0" 0) then 1 else 0). split; [reflexivity|]. split; cbn; lra.
Qed.
