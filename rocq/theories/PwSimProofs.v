(** Simulated trajectories meet the transcription's restrictions (C03), for a
    root finder that solves what can be solved. *)
From Coq Require Import String ClassicalEpsilon.
From Verif Require Import Prelude PreludeFacts PwModel PwFacts PwSpec PwInterpModel PwInterpSpec PwIntegrProofs PwSchemeProofs PwFinalProofs PwExamples.
Open Scope R_scope.
Open Scope vec_scope.
Open Scope list_scope.

Section Sim.
  Context {P : Type}.
  Variable F : vec -> vec -> P -> vec.
  Variable p : P.
  Variable N : nat.
  Variable dt : R.
  Variable root : (vec -> vec) -> vec -> vec.
  Variables (x_0 : vec) (u : tape).
  Hypothesis Hu : tape_wf u.
  Hypothesis Hroot : solves N root.
  Hypothesis Hx0 : length x_0 = N.

  Lemma sim_generic (Q : vec -> vec -> vec -> vec -> Prop) (step : vec -> vec -> vec -> vec) xs :
    (forall x a b, length x = N -> length (step x a b) = N /\ Q x (step x a b) a b) ->
    trajectory (length (tape_rows u)) x_0 (tape_step (tape_rows u) step) xs ->
    forall i, (i < length (tape_rows u))%nat ->
      length (nth i xs []) = N /\
      Q (nth i xs []) (nth (S i) xs []) (nth i (tape_rows u) []) (next_u (tape_rows u) i).
  Proof.
    intros HQ (HL & H0 & HS) i Hi.
    assert (L : forall i, (i <= length (tape_rows u))%nat -> length (nth i xs []) = N).
    { induction i0 as [|i0 IH]; intros H; [now rewrite H0|]. rewrite HS by lia. unfold tape_step.
      destruct (_ <? _)%nat; apply HQ; apply IH; lia. }
    split; [apply L; lia|]. rewrite HS by lia. unfold tape_step, next_u.
    destruct (Nat.ltb_spec (S i) (length (tape_rows u))); [apply HQ, L; lia|].
    replace (nth i (tape_rows u) []) with (last (tape_rows u) []).
    - apply HQ, L; lia.
    - rewrite (last_nth' (tape_rows u)) by (intros E; rewrite E in Hi; simpl in Hi; lia). f_equal. lia.
  Qed.
  Lemma sim_generic_c (Q : vec -> vec -> vec -> vec -> vec -> Prop) (Ql : vec -> vec -> vec -> vec -> Prop)
    (step : vec -> vec -> vec -> vec -> vec) (fin : vec -> vec -> vec) uc xs :
    (forall x a b c, length x = N -> length (step x a b c) = N /\ Q x (step x a b c) a b c) ->
    (forall x a, length x = N -> length (fin x a) = N /\ Ql x (fin x a) a a) ->
    trajectory (length (tape_rows u)) x_0 (tape_step_c (tape_rows u) step fin uc) xs ->
    forall i, (i < length (tape_rows u))%nat ->
      if (S i <? length (tape_rows u))%nat
      then Q (nth i xs []) (nth (S i) xs []) (nth i (tape_rows u) []) (nth (S i) (tape_rows u) []) (uc i)
      else Ql (nth i xs []) (nth (S i) xs []) (nth i (tape_rows u) []) (nth i (tape_rows u) []).
  Proof.
    intros HQ HQl (HL & H0 & HS) i Hi.
    assert (L : forall i, (i <= length (tape_rows u))%nat -> length (nth i xs []) = N).
    { induction i0 as [|i0 IH]; intros H; [now rewrite H0|]. rewrite HS by lia. unfold tape_step_c.
      destruct (_ <? _)%nat; [apply HQ|apply HQl]; apply IH; lia. }
    rewrite HS by lia. unfold tape_step_c.
    destruct (Nat.ltb_spec (S i) (length (tape_rows u))); [apply HQ, L; lia|].
    replace (last (tape_rows u) []) with (nth i (tape_rows u) []).
    - apply HQl, L; lia.
    - rewrite (last_nth' (tape_rows u)) by (intros E; rewrite E in Hi; simpl in Hi; lia). f_equal. lia.
  Qed.

  (** One step: the residual has the same zeros as the restriction. *)
  Lemma root_step (r : vec -> vec) g (restr : vec -> vec) :
    (forall y, length y = N -> (vzero (r y) <-> vzero (restr y))) ->
    (exists y, length y = N /\ vzero (restr y)) ->
    length (root r g) = N /\ vzero (restr (root r g)).
  Proof.
    intros HE [y [Ly Hy]]. destruct (Hroot r g) as [L Z].
    - exists y. split; [exact Ly|]. now apply HE.
    - split; [exact L|]. now apply HE.
  Qed.

  Local Notation solvable := (solvable N).

  Lemma implicit_sim (opti restr : vec -> vec -> vec -> vec -> R -> P -> vec) xs :
    (forall x y a b, length x = N -> length y = N -> (vzero (opti y x a b dt p) <-> vzero (restr x y a b dt p))) ->
    solvable (fun x y a b => restr x y a b dt p) ->
    integrate_with (fun _ x a b => Ok (root (fun y => opti y x a b dt p) (euler_step F x a dt p)))
                   (fun _ x a b => Ok (root (fun y => opti y x a b dt p) (euler_step F x a dt p))) x_0 u = Ok xs ->
    forall i, (i < length (tape_rows u))%nat ->
      vzero (restr (nth i xs []) (nth (S i) xs []) (nth i (tape_rows u) []) (next_u (tape_rows u) i) dt p).
  Proof.
    intros HE HS HI i Hi.
    destruct (integrate_implicit_tape x_0 u dt p Hu (fun x a b dt p => root (fun y => opti y x a b dt p) (euler_step F x a dt p))) as [xs' [E T]].
    rewrite HI in E. injection E as <-.
    refine (proj2 (sim_generic (fun x y a b => vzero (restr x y a b dt p)) _ xs _ T i Hi)).
    intros x a b Lx. apply (root_step (fun y => opti y x a b dt p) _ (fun y => restr x y a b dt p)); [|now apply HS]. intros y Ly. now apply HE.
  Qed.

  Lemma parab_sim (optic : vec -> vec -> vec -> vec -> R -> P -> vec -> vec) (restrc : vec -> vec -> vec -> vec -> R -> P -> vec -> vec)
    (opti restr : vec -> vec -> vec -> vec -> R -> P -> vec) u_c xs :
    (forall x y a b c, length x = N -> length y = N -> (vzero (optic y x a b dt p c) <-> vzero (restrc x y a b dt p c))) ->
    (forall x y a b, length x = N -> length y = N -> (vzero (opti y x a b dt p) <-> vzero (restr x y a b dt p))) ->
    (forall c, solvable (fun x y a b => restrc x y a b dt p c)) ->
    solvable (fun x y a b => restr x y a b dt p) ->
    (length (tape_rows u) - 1 <= length u_c)%nat ->
    integrate_with (fun ii x a b => do c <- pyget u_c (Z.of_nat ii); Ok (root (fun y => optic y x a b dt p c) (euler_step F x a dt p)))
                   (fun _ x a b => Ok (root (fun y => opti y x a b dt p) (euler_step F x a dt p))) x_0 u = Ok xs ->
    forall i, (i < length (tape_rows u))%nat ->
      let x := nth i xs [] in let y := nth (S i) xs [] in let a := nth i (tape_rows u) [] in
      if (S i <? length (tape_rows u))%nat
      then vzero (restrc x y a (nth (S i) (tape_rows u) []) dt p (nth i u_c []))
      else vzero (restr x y a a dt p).
  Proof.
    intros HEc HE HSc HS HL HI i Hi.
    destruct (integrate_parab_tape x_0 u dt p Hu (fun x a b dt p c => root (fun y => optic y x a b dt p c) (euler_step F x a dt p))
      (fun x a b dt p => root (fun y => opti y x a b dt p) (euler_step F x a dt p)) u_c HL) as [xs' [E T]].
    rewrite HI in E. injection E as <-.
    refine (sim_generic_c (fun x y a b c => vzero (restrc x y a b dt p c)) (fun x y a b => vzero (restr x y a b dt p)) _ _ (fun i => nth i u_c []) xs _ _ T i Hi).
    - intros x a b c Lx. apply (root_step (fun y => optic y x a b dt p c) _ (fun y => restrc x y a b dt p c)); [|now apply HSc]. intros y Ly. now apply HEc.
    - intros x a Lx. apply (root_step (fun y => opti y x a a dt p) _ (fun y => restr x y a a dt p)); [|now apply HS]. intros y Ly. now apply HE.
  Qed.
End Sim.

Section Instances.
  Context {P : Type}.
  Variable F : vec -> vec -> P -> vec.
  Variable p : P.
  Variable dt : R.
  Variable root : (vec -> vec) -> vec -> vec.
  Variables (x_0 : vec) (u : tape) (xs : list vec).

  Lemma sim_trapz N : tape_wf u -> solves N root -> length x_0 = N -> same_size N F p ->
    solvable N (fun x y a b => trapz_restr F x y a b dt p) ->
    integrate_trapz F root x_0 u dt p = Ok xs -> forall i, (i < length (tape_rows u))%nat ->
    vzero (trapz_restr F (nth i xs []) (nth (S i) xs []) (nth i (tape_rows u) []) (next_u (tape_rows u) i) dt p).
  Proof.
    intros Hu Hr Hx HF HS HI. apply (implicit_sim F p N dt root x_0 u Hu Hr Hx (trapz_opti_step F) (trapz_restr F) xs); auto.
    intros. now apply (trapz_equiv F p N).
  Qed.
  Lemma sim_hs N : tape_wf u -> solves N root -> length x_0 = N ->
    solvable N (fun x y a b => hs_restr F x y a b dt p) ->
    integrate_hs F root x_0 u dt p = Ok xs -> forall i, (i < length (tape_rows u))%nat ->
    vzero (hs_restr F (nth i xs []) (nth (S i) xs []) (nth i (tape_rows u) []) (next_u (tape_rows u) i) dt p).
  Proof.
    intros Hu Hr Hx HS HI. apply (implicit_sim F p N dt root x_0 u Hu Hr Hx (hs_opti_step F) (hs_restr F) xs); auto.
    intros. apply hs_equiv.
  Qed.
  Lemma sim_trapz_mod m : tape_wf u -> solves (2 * m) root -> length x_0 = (2 * m)%nat -> same_size (2 * m) F p ->
    solvable (2 * m) (fun x y a b => trapz_mod_restr F x y a b dt p) ->
    integrate_trapz_mod F root x_0 u dt p = Ok xs -> forall i, (i < length (tape_rows u))%nat ->
    vzero (trapz_mod_restr F (nth i xs []) (nth (S i) xs []) (nth i (tape_rows u) []) (next_u (tape_rows u) i) dt p).
  Proof.
    intros Hu Hr Hx HF HS HI. apply (implicit_sim F p (2 * m) dt root x_0 u Hu Hr Hx (trapz_mod_opti_step F) (trapz_mod_restr F) xs); auto.
    intros. now apply (trapz_mod_equiv F p m).
  Qed.
  Lemma sim_hs_mod m : tape_wf u -> solves (2 * m) root -> length x_0 = (2 * m)%nat -> same_size (2 * m) F p ->
    solvable (2 * m) (fun x y a b => hs_mod_restr F x y a b dt p) ->
    integrate_hs_mod F root x_0 u dt p = Ok xs -> forall i, (i < length (tape_rows u))%nat ->
    vzero (hs_mod_restr F (nth i xs []) (nth (S i) xs []) (nth i (tape_rows u) []) (next_u (tape_rows u) i) dt p).
  Proof.
    intros Hu Hr Hx HF HS HI. apply (implicit_sim F p (2 * m) dt root x_0 u Hu Hr Hx (hs_mod_opti_step F) (hs_mod_restr F) xs); auto.
    intros. now apply (hs_mod_equiv F p m).
  Qed.
  Lemma sim_hsj m : tape_wf u -> solves (2 * m) root -> length x_0 = (2 * m)%nat -> same_size (2 * m) F p ->
    solvable (2 * m) (fun x y a b => hsj_restr F x y a b dt p) ->
    integrate_hsj F root x_0 u dt p = Ok xs -> forall i, (i < length (tape_rows u))%nat ->
    vzero (hsj_restr F (nth i xs []) (nth (S i) xs []) (nth i (tape_rows u) []) (next_u (tape_rows u) i) dt p).
  Proof.
    intros Hu Hr Hx HF HS HI. apply (implicit_sim F p (2 * m) dt root x_0 u Hu Hr Hx (hsj_opti_step F) (hsj_restr F) xs); auto.
    intros. now apply (hsj_equiv F p m).
  Qed.
  Lemma sim_hs_parab N u_c : tape_wf u -> solves N root -> length x_0 = N ->
    (forall c, solvable N (fun x y a b => hs_parab_restr F x y a b dt p c)) ->
    solvable N (fun x y a b => hs_restr F x y a b dt p) -> (length (tape_rows u) - 1 <= length u_c)%nat ->
    integrate_hs_parab F root x_0 u dt p u_c = Ok xs -> forall i, (i < length (tape_rows u))%nat ->
    let x := nth i xs [] in let y := nth (S i) xs [] in let a := nth i (tape_rows u) [] in
    if (S i <? length (tape_rows u))%nat
    then vzero (hs_parab_restr F x y a (nth (S i) (tape_rows u) []) dt p (nth i u_c []))
    else vzero (hs_restr F x y a a dt p).
  Proof.
    intros Hu Hr Hx HSc HS HL HI.
    apply (parab_sim F p N dt root x_0 u Hu Hr Hx (hs_parab_opti_step F) (hs_parab_restr F) (hs_opti_step F) (hs_restr F) u_c xs); auto.
    - intros. apply hs_parab_equiv.
    - intros. apply hs_equiv.
  Qed.
  Lemma sim_hs_mod_parab m u_c : tape_wf u -> solves (2 * m) root -> length x_0 = (2 * m)%nat -> same_size (2 * m) F p ->
    (forall c, solvable (2 * m) (fun x y a b => hs_mod_parab_restr F x y a b dt p c)) ->
    solvable (2 * m) (fun x y a b => hs_mod_restr F x y a b dt p) -> (length (tape_rows u) - 1 <= length u_c)%nat ->
    integrate_hs_mod_parab F root x_0 u dt p u_c = Ok xs -> forall i, (i < length (tape_rows u))%nat ->
    let x := nth i xs [] in let y := nth (S i) xs [] in let a := nth i (tape_rows u) [] in
    if (S i <? length (tape_rows u))%nat
    then vzero (hs_mod_parab_restr F x y a (nth (S i) (tape_rows u) []) dt p (nth i u_c []))
    else vzero (hs_mod_restr F x y a a dt p).
  Proof.
    intros Hu Hr Hx HF HSc HS HL HI.
    apply (parab_sim F p (2 * m) dt root x_0 u Hu Hr Hx (hs_mod_parab_opti_step F) (hs_mod_parab_restr F) (hs_mod_opti_step F) (hs_mod_restr F) u_c xs); auto.
    - intros. now apply (hs_mod_parab_equiv F p m).
    - intros. now apply (hs_mod_equiv F p m).
  Qed.
  Lemma sim_hsj_parab m u_c : tape_wf u -> solves (2 * m) root -> length x_0 = (2 * m)%nat -> same_size (2 * m) F p ->
    (forall c, solvable (2 * m) (fun x y a b => hsj_parab_restr F x y a b dt p c)) ->
    solvable (2 * m) (fun x y a b => hsj_restr F x y a b dt p) -> (length (tape_rows u) - 1 <= length u_c)%nat ->
    integrate_hsj_parab F root x_0 u dt p u_c = Ok xs -> forall i, (i < length (tape_rows u))%nat ->
    let x := nth i xs [] in let y := nth (S i) xs [] in let a := nth i (tape_rows u) [] in
    if (S i <? length (tape_rows u))%nat
    then vzero (hsj_parab_restr F x y a (nth (S i) (tape_rows u) []) dt p (nth i u_c []))
    else vzero (hsj_restr F x y a a dt p).
  Proof.
    intros Hu Hr Hx HF HSc HS HL HI.
    apply (parab_sim F p (2 * m) dt root x_0 u Hu Hr Hx (hsj_parab_opti_step F) (hsj_parab_restr F) (hsj_opti_step F) (hsj_restr F) u_c xs); auto.
    - intros. now apply (hsj_parab_equiv F p m).
    - intros. now apply (hsj_equiv F p m).
  Qed.
End Instances.

(** The hypotheses can be met: a root finder that solves everything solvable
    exists (by choice), and the double integrator's restrictions are solvable
    for every step. *)
Lemma solves_exists N : exists root, solves N root.
Proof.
  exists (fun r _ => epsilon (inhabits []) (fun y => length y = N /\ vzero (r y))).
  intros r g H. now apply (epsilon_spec (inhabits []) (fun y => length y = N /\ vzero (r y))).
Qed.
Lemma ex_solvable : solvable (2 * 1) (fun x y a b => trapz_mod_restr ex_F x y a b (1 / 2) tt).
Proof.
  intros x a b Hx. destruct x as [|q [|v [|]]]; try discriminate.
  exists [q + (1 / 2) * v + ((1 / 2) ^ 2 / 6) * (vnth b 0 + 2 * vnth a 0); v + (1 / 2) / 2 * (vnth a 0 + vnth b 0)].
  split; [reflexivity|]. unfold vzero, trapz_mod_restr, ex_F, vnth, vadd, vsub, vscale. simpl.
  repeat constructor; lra.
Qed.
