(** Cases of the theorems about AnalysisPtModel.v. *)
From Coq Require Import String ClassicalEpsilon.
From Coquelicot Require Import Coquelicot.
From Verif Require Import Prelude PreludeFacts Mat MatFacts PwModel PwFacts PwSpec PwInterpModel PwInterpSpec PwInterpProofs
  AnalysisModel AnalysisSpec AnalysisPwProofs AnalysisPtModel AnalysisPtSpec PwFinalProofs AnalysisPtProofs AnalysisPtLive.
Open Scope R_scope.
Open Scope vec_scope.
Open Scope list_scope.

(** A quadrature without error that raises when its function does. *)
Definition value_or_0 (f : R -> Res R) (t : R) : R := match f t with Ok v => v | Err _ => 0 end.
Definition exact_quad (f : R -> Res R) (a b : R) (_ : list R) : Res R :=
  if excluded_middle_informative (forall t, Rmin a b <= t <= Rmax a b -> exists v, f t = Ok v) then Ok (RInt (value_or_0 f) a b) else Err ValueError.
Lemma exact_quad_exact : quad_exact exact_quad.
Proof.
  intros f g a b pts Hab H I. unfold exact_quad. destruct (excluded_middle_informative _) as [_|N].
  - f_equal. apply RInt_ext. intros t Ht. rewrite Rmin_left, Rmax_right in Ht by lra. unfold value_or_0. now rewrite H by lra.
  - exfalso. apply N. intros t Ht. rewrite Rmin_left, Rmax_right in Ht by lra. exists (g t). now apply H.
Qed.
Lemma exact_quad_raises : quad_raises exact_quad.
Proof.
  intros f a b pts H. unfold exact_quad. destruct (excluded_middle_informative _) as [Y|_]; [|eauto]. exfalso.
  destruct (Y a) as [v E]; [split; [apply Rmin_l|apply Rmax_l]|]. destruct (H a) as [e E']. congruence.
Qed.

(** q = t^2 without any force: the motion is 1 away from the one that the
    dynamics give. *)
Definition free_F (x u : vec) (_ : unit) : vec := [vnth x 1; vnth u 0].
Definition parab_q (_ : list R) (_ _ : list vec) (t : R) : vec := [t * t; 6 * t * t - 4 * t * t * t].
Definition parab_qd (_ : list R) (_ _ : list vec) (t : R) : vec := [2 * t; 12 * t - 12 * t * t].
Lemma free_form : second_order 1 free_F tt.
Proof. intros x u L. destruct x as [|a [|b [|]]]; try discriminate. split; reflexivity. Qed.
Lemma parab_interpolates : interpolates [0; 1] [[0; 0]; [1; 2]] [[0; 0]; [2; 0]] (parab_q [0; 1] [[0; 0]; [1; 2]] [[0; 0]; [2; 0]]) (parab_qd [0; 1] [[0; 0]; [1; 2]] [[0; 0]; [2; 0]]).
Proof.
  split; [|split].
  - intros [|[|k]] Hk; [| |cbn in Hk; lia]; unfold parab_q, parab_qd, vnth; cbn [nth]; split; repeat (f_equal; try ring).
  - intros t. split; reflexivity.
  - intros i t. unfold parab_q, parab_qd, vnth. destruct i as [|[|i]]; cbn [nth]; [auto_derive; auto; ring|auto_derive; auto; ring|].
    destruct i; apply (is_derive_const (V := R_NormedModule)).
Qed.
Lemma control_zero h t u : control_at [[0]; [0]] h t u -> vnth u 0 = 0.
Proof.
  intros [(i & Hi & _ & ->)|(i & Hi & _ & ->)]; cbn [length] in Hi.
  - destruct i as [|[|i]]; [reflexivity|reflexivity|lia].
  - assert (i = 0%nat) by lia. subst i. cbn. unfold vnth. cbn. unfold Rdiv. ring.
Qed.
Lemma free_error b : exists E, doub_quad_problem parab_q parab_qd exact_quad [[0; 0]; [1; 2]] [[0]; [0]] [0; 1] tt free_F "hs_scipy" "lin" None b = Ok E /\ E = [1].
Proof.
  destruct (double_integral parab_q parab_qd exact_quad free_F tt [[0; 0]; [1; 2]] [[0]; [0]] [0; 1] None b 1 (fun _ _ => 2) (fun _ _ => 0)) as (E & EE & LE & VE).
  - exact exact_quad_exact.
  - exact free_form.
  - cbn; lia.
  - reflexivity.
  - reflexivity.
  - reflexivity.
  - cbn. lra.
  - intros x [<-|[<-|[]]]; reflexivity.
  - exact parab_interpolates.
  - intros [|ii] Hi t; [|lia]. unfold parab_qd, vnth. cbn [nth].
    pose proof (is_RInt_const (V := R_CompleteNormedModule) 0 t 2) as I. unfold scal in I; cbn in I. unfold mult in I; cbn in I.
    now replace (2 * t - 2 * 0) with ((t - 0) * 2) by ring.
  - intros ii Hi t. apply ex_RInt_const.
  - intros [|ii] t u Hi Ht Cu; [|lia]. unfold free_F, vnth at 1. cbn [Nat.add nth]. now apply (control_zero _ _ _ Cu).
  - exists E. split; [exact EE|]. destruct E as [|e [|]]; try discriminate. specialize (VE 0%nat ltac:(lia)). unfold vnth at 1 in VE. cbn [nth last] in VE. rewrite VE. f_equal.
    rewrite (RInt_ext _ (fun t => 2 * t)).
    2:{ intros t _. rewrite RInt_const. unfold scal; cbn. unfold mult; cbn. ring. }
    apply is_RInt_unique. replace 1 with (1 * 1 - 0 * 0) at 2 by ring.
    apply (is_RInt_derive (V := R_CompleteNormedModule) (fun t => t * t) (fun t => 2 * t)); intros t _; [auto_derive; auto; ring|].
    apply (ex_derive_continuous (fun t : R => 2 * t)). auto_derive; auto.
Qed.

(** From time -1/2: q = t + 1/2 without force has no error, but 1/2 is returned. *)
Definition line_q (_ : list R) (_ _ : list vec) (t : R) : vec := [t + / 2; 1].
Definition line_qd (_ : list R) (_ _ : list vec) (t : R) : vec := [1; 0].
Definition still_F (x u : vec) (_ : unit) : vec := [vnth x 1; 0].
Lemma still_form : second_order 1 still_F tt.
Proof. intros x u L. destruct x as [|a [|b [|]]]; try discriminate. split; reflexivity. Qed.
Lemma line_interpolates ts X Xd : interpolates [- / 2; / 2] [[0; 1]; [1; 1]] [[1; 0]; [1; 0]] (line_q ts X Xd) (line_qd ts X Xd).
Proof.
  split; [|split].
  - intros [|[|k]] Hk; [| |cbn in Hk; lia]; unfold line_q, line_qd, vnth; cbn [nth]; split; repeat (f_equal; try lra).
  - intros t. split; reflexivity.
  - intros i t. unfold line_q, line_qd, vnth. destruct i as [|[|i]]; cbn [nth]; [auto_derive; auto; ring|apply (is_derive_const (V := R_NormedModule))|].
    destruct i; apply (is_derive_const (V := R_NormedModule)).
Qed.
Lemma late_point t : - / 2 <= t <= / 2 -> F_point line_q line_qd [[0; 1]; [1; 1]] [[0]; [0]] [- / 2; / 2] t tt still_F None "hs_scipy" "lin" None = Ok [0].
Proof.
  intros Ht. unfold F_point. rewrite missing_scipy by reflexivity. cbn [rbind]. change ("hs_scipy" =? "hs_scipy")%string with true. cbv iota. cbn [rbind].
  assert (EH : (last [- / 2; / 2] 0 - vnth [- / 2; / 2] 0) / (INR (length [[0; 1]; [1; 1]]) - 1) = 1). { unfold vnth. cbn. field. }
  rewrite EH. assert (EU : exists u, newpoint_u (fun _ _ => Err KeyError) [[0]; [0]] 1 t "lin" no_params = Ok u).
  { assert (N : (seg_index t 1 = 0 \/ seg_index t 1 = -1)%Z).
    { destruct (Rle_dec 0 t) as [H|H]; [left|right]; apply seg_index_eq; cbn; lra. }
    unfold newpoint_u. destruct N as [-> | ->]; cbn [length Z.of_nat Z.ltb Z.add Z.compare Pos.of_succ_nat Pos.succ Pos.compare Pos.compare_cont];
      (destruct (Rlt_dec _ _); [eexists; reflexivity|]; destruct (Rlt_dec _ _); [eexists; reflexivity|]; eexists; reflexivity). }
  destruct EU as [u ->]. cbn [rbind]. reflexivity.
Qed.
Lemma late_error b : doub_quad_problem line_q line_qd exact_quad [[0; 1]; [1; 1]] [[0]; [0]] [- / 2; / 2] tt still_F "hs_scipy" "lin" None b = Ok [/ 2].
Proof.
  unfold doub_quad_problem. change (Nat.div (mwidth [[0; 1]; [1; 1]]) 2) with 1%nat. cbn [seq mapm].
  change (vnth [- / 2; / 2] 0) with (- / 2). change (last [- / 2; / 2] 0) with (/ 2). set (pts := break_points _ _).
  set (f := fun s => do E <- F_point _ _ _ _ _ s _ _ _ _ _ _; item 0 E).
  assert (Hf : forall s, - / 2 <= s <= / 2 -> f s = Ok 0). { intros s Hs. unfold f. rewrite late_point by exact Hs. reflexivity. }
  clearbody f.
  assert (Z : forall a c, RInt (fun _ : R => 0) a c = 0). { intros a c. rewrite RInt_const. unfold scal; cbn. unfold mult; cbn. ring. }
  rewrite (exact_quad_exact _ (fun _ => 0) (- / 2) (/ 2) pts).
  - cbn [rbind]. rewrite Z. unfold vnth. cbn [last nth Nat.add]. repeat f_equal. lra.
  - lra.
  - intros t Ht. rewrite (exact_quad_exact _ (fun _ => 0) (- / 2) t pts); [now rewrite Z|lra|intros s Hs; apply Hf; lra|apply ex_RInt_const].
  - apply ex_RInt_const.
Qed.

(** A mass 2 with force 4, q = t^2 *)
Definition mass_M (x : vec) (_ : unit) : mat := [[2]].
Definition mass_F (x u : vec) (_ : unit) : vec := [vnth u 0].
Definition divide (m : mat) (v : vec) : vec := map (fun y => y / vnth (nth 0 m []) 0) v.
Lemma mass_solved x u : length x = 2%nat -> length (divide (mass_M x tt) (mass_F x u tt)) = 1%nat /\
  2 * vnth (divide (mass_M x tt) (mass_F x u tt)) 0 = vnth u 0.
Proof. intros _. split; [reflexivity|]. unfold divide, mass_F, mass_M, vnth. cbn [map nth]. field. Qed.
Lemma mass_error u_other hermite n : (1 <= n)%nat -> exists r,
  dynamic_error_implicit u_other hermite divide [[0; 0]; [1; 2]] [[4]; [4]] 1 tt mass_F mass_M None "trapz" "lin" None n 2 "q" = Ok r.
Proof.
  intros Hn. apply (implicit_live u_other hermite divide mass_M mass_F tt 1).
  - intros x u _. reflexivity.
  - now left.
  - lia.
  - lra.
  - cbn; lia.
  - intros x [<-|[<-|[]]]; reflexivity.
  - now left.
  - exact Hn.
  - now left.
Qed.
Lemma breaks t0 ts tN : break_points true (t0 :: ts ++ [tN]) = ts /\ forall l, break_points false l = [].
Proof.
  split; [|reflexivity]. unfold break_points. cbn [skipn]. unfold butlastn. rewrite app_length. cbn [length]. rewrite Nat.add_sub. now rewrite firstn_app, Nat.sub_diag, firstn_all, app_nil_r.
Qed.
