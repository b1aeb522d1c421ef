(** Properties C01-C18 and C65 of chords/piecewise.py.  Only statements: each
    theorem is an [exact] of a lemma proved elsewhere, followed by its
    assumptions and by an example that meets its hypotheses. *)
From Coquelicot Require Import Coquelicot.
From Coq Require Import String.
From Verif Require Import Prelude PreludeFacts Poly PolyFacts PwModel PwInterpModel PwFacts PwSpec PwInterpSpec PwIntegrProofs PwSchemeProofs PwAccelProofs PwMotionProofs PwDynProofs PwStepProofs PwInterpProofs PwMoreProofs PwLiveProofs PwFinalProofs PwExamples PwSimProofs.
Open Scope R_scope.
Open Scope vec_scope.
Open Scope list_scope.

(** ** C01  Integrators return the whole recurrence *)

Theorem C01_euler :
  forall P (F : vec -> vec -> P -> vec) (x_0 : vec) (u : tape) (dt : R) (p : P), tape_wf u ->
  exists xs, integrate_euler F x_0 u dt p = Ok xs /\
    trajectory (length (tape_rows u)) x_0 (fun i x => euler_step F x (nth i (tape_rows u) []) dt p) xs.
Proof. exact (@integrate_euler_spec). Qed.
Print Assumptions C01_euler.

Theorem C01_rk4 :
  forall P (x_0 : vec) (u : tape) (dt : R) (p : P), tape_wf u -> forall (F : vec -> vec -> P -> vec) (uc : option (list vec)),
  (forall c, uc = Some c -> (length (tape_rows u) - 1 <= length c)%nat) ->
  exists xs, integrate_rk4 F x_0 u dt p uc = Ok xs /\
    trajectory (length (tape_rows u)) x_0
      (tape_step_c (tape_rows u) (fun x a b c => rk4_step F x a b dt p c) (fun x a => rk4_step F x a a dt p a)
        (fun i => match uc with
                  | Some c => nth i c []
                  | None => (nth i (tape_rows u) [] +v nth (S i) (tape_rows u) []) /v 2 end)) xs.
Proof. exact (@integrate_rk4_tape). Qed.
Print Assumptions C01_rk4.

Theorem C01_trapz :
  forall P (F : vec -> vec -> P -> vec) (root : (vec -> vec) -> vec -> vec) (x_0 : vec) (u : tape) (dt : R) (p : P), tape_wf u ->
  exists xs, integrate_trapz F root x_0 u dt p = Ok xs /\
    trajectory (length (tape_rows u)) x_0 (tape_step (tape_rows u) (fun x a b => trapz_step F root x a b dt p)) xs.
Proof. exact (fun P F root x_0 u dt p Hu => integrate_implicit_tape x_0 u dt p Hu (trapz_step F root)). Qed.
Print Assumptions C01_trapz.

Theorem C01_trapz_mod :
  forall P (F : vec -> vec -> P -> vec) (root : (vec -> vec) -> vec -> vec) (x_0 : vec) (u : tape) (dt : R) (p : P), tape_wf u ->
  exists xs, integrate_trapz_mod F root x_0 u dt p = Ok xs /\
    trajectory (length (tape_rows u)) x_0 (tape_step (tape_rows u) (fun x a b => trapz_mod_step F root x a b dt p)) xs.
Proof. exact (fun P F root x_0 u dt p Hu => integrate_implicit_tape x_0 u dt p Hu (trapz_mod_step F root)). Qed.
Print Assumptions C01_trapz_mod.

Theorem C01_hs :
  forall P (F : vec -> vec -> P -> vec) (root : (vec -> vec) -> vec -> vec) (x_0 : vec) (u : tape) (dt : R) (p : P), tape_wf u ->
  exists xs, integrate_hs F root x_0 u dt p = Ok xs /\
    trajectory (length (tape_rows u)) x_0 (tape_step (tape_rows u) (fun x a b => hs_step F root x a b dt p)) xs.
Proof. exact (fun P F root x_0 u dt p Hu => integrate_implicit_tape x_0 u dt p Hu (hs_step F root)). Qed.
Print Assumptions C01_hs.

Theorem C01_hs_mod :
  forall P (F : vec -> vec -> P -> vec) (root : (vec -> vec) -> vec -> vec) (x_0 : vec) (u : tape) (dt : R) (p : P), tape_wf u ->
  exists xs, integrate_hs_mod F root x_0 u dt p = Ok xs /\
    trajectory (length (tape_rows u)) x_0 (tape_step (tape_rows u) (fun x a b => hs_mod_step F root x a b dt p)) xs.
Proof. exact (fun P F root x_0 u dt p Hu => integrate_implicit_tape x_0 u dt p Hu (hs_mod_step F root)). Qed.
Print Assumptions C01_hs_mod.

Theorem C01_hsj :
  forall P (F : vec -> vec -> P -> vec) (root : (vec -> vec) -> vec -> vec) (x_0 : vec) (u : tape) (dt : R) (p : P), tape_wf u ->
  exists xs, integrate_hsj F root x_0 u dt p = Ok xs /\
    trajectory (length (tape_rows u)) x_0 (tape_step (tape_rows u) (fun x a b => hsj_step F root x a b dt p)) xs.
Proof. exact (fun P F root x_0 u dt p Hu => integrate_implicit_tape x_0 u dt p Hu (hsj_step F root)). Qed.
Print Assumptions C01_hsj.

Theorem C01_hs_parab :
  forall P (F : vec -> vec -> P -> vec) (root : (vec -> vec) -> vec -> vec) (x_0 : vec) (u : tape) (dt : R) (p : P) (u_c : list vec), tape_wf u ->
  (length (tape_rows u) - 1 <= length u_c)%nat ->
  exists xs, integrate_hs_parab F root x_0 u dt p u_c = Ok xs /\
    trajectory (length (tape_rows u)) x_0
      (tape_step_c (tape_rows u) (fun x a b c => hs_parab_step F root x a b dt p c) (fun x a => hs_step F root x a a dt p) (fun i => nth i u_c [])) xs.
Proof. exact (fun P F root x_0 u dt p u_c Hu Hc => integrate_parab_tape x_0 u dt p Hu (hs_parab_step F root) (hs_step F root) u_c Hc). Qed.
Print Assumptions C01_hs_parab.

Theorem C01_hs_mod_parab :
  forall P (F : vec -> vec -> P -> vec) (root : (vec -> vec) -> vec -> vec) (x_0 : vec) (u : tape) (dt : R) (p : P) (u_c : list vec), tape_wf u ->
  (length (tape_rows u) - 1 <= length u_c)%nat ->
  exists xs, integrate_hs_mod_parab F root x_0 u dt p u_c = Ok xs /\
    trajectory (length (tape_rows u)) x_0
      (tape_step_c (tape_rows u) (fun x a b c => hs_mod_parab_step F root x a b dt p c) (fun x a => hs_mod_step F root x a a dt p) (fun i => nth i u_c [])) xs.
Proof. exact (fun P F root x_0 u dt p u_c Hu Hc => integrate_parab_tape x_0 u dt p Hu (hs_mod_parab_step F root) (hs_mod_step F root) u_c Hc). Qed.
Print Assumptions C01_hs_mod_parab.

Theorem C01_hsj_parab :
  forall P (F : vec -> vec -> P -> vec) (root : (vec -> vec) -> vec -> vec) (x_0 : vec) (u : tape) (dt : R) (p : P) (u_c : list vec), tape_wf u ->
  (length (tape_rows u) - 1 <= length u_c)%nat ->
  exists xs, integrate_hsj_parab F root x_0 u dt p u_c = Ok xs /\
    trajectory (length (tape_rows u)) x_0
      (tape_step_c (tape_rows u) (fun x a b c => hsj_parab_step F root x a b dt p c) (fun x a => hsj_step F root x a a dt p) (fun i => nth i u_c [])) xs.
Proof. exact (fun P F root x_0 u dt p u_c Hu Hc => integrate_parab_tape x_0 u dt p Hu (hsj_parab_step F root) (hsj_step F root) u_c Hc). Qed.
Print Assumptions C01_hsj_parab.

(** The claim fails for a tape of one step with several controls: the number of controls is taken for the number of steps. *)
Theorem C01_single_row_refuted :
  forall P (F : vec -> vec -> P -> vec) (x_0 r : vec) (dt : R) (p : P), (2 <= length r)%nat ->
  integrate_euler F x_0 {| tape_2d := true; tape_rows := [r] |} dt p = Err IndexError.
Proof. exact (@integrate_euler_single_row). Qed.
Print Assumptions C01_single_row_refuted.

Theorem C01_single_row_others_refuted :
  forall P (F : vec -> vec -> P -> vec) (root : (vec -> vec) -> vec -> vec) (x_0 r : vec) (dt : R) (p : P), (2 <= length r)%nat ->
  let u := {| tape_2d := true; tape_rows := [r] |} in
  integrate_trapz F root x_0 u dt p = Err IndexError /\ integrate_trapz_mod F root x_0 u dt p = Err IndexError /\
  integrate_hs F root x_0 u dt p = Err IndexError /\ integrate_hs_mod F root x_0 u dt p = Err IndexError /\
  integrate_hsj F root x_0 u dt p = Err IndexError.
Proof. exact (fun P F root x_0 r dt p Hr => conj (integrate_with_single_row _ _ x_0 r Hr) (conj (integrate_with_single_row _ _ x_0 r Hr) (conj (integrate_with_single_row _ _ x_0 r Hr) (conj (integrate_with_single_row _ _ x_0 r Hr) (integrate_with_single_row _ _ x_0 r Hr))))). Qed.
Print Assumptions C01_single_row_others_refuted.

Example C01_hypotheses : tape_wf ex_tape /\ (length (tape_rows ex_tape) - 1 <= length [[3 / 2]; [5 / 2]])%nat.
Proof. exact ex_tape_ok. Qed.

(** ** C02  Integrators are causal *)

Theorem C02_euler :
  forall P (x_0 : vec) (u u' : tape) (dt : R) (p : P) (k : nat), tape_wf u -> tape_wf u' ->
  forall (F : vec -> vec -> P -> vec) (xs xs' : list vec),
  agree k (tape_rows u) (tape_rows u') -> (k <= length (tape_rows u))%nat -> (k <= length (tape_rows u'))%nat ->
  integrate_euler F x_0 u dt p = Ok xs -> integrate_euler F x_0 u' dt p = Ok xs' ->
  forall j, (j <= k)%nat -> nth j xs [] = nth j xs' [].
Proof. exact (@euler_causal). Qed.
Print Assumptions C02_euler.

Theorem C02_rk4 :
  forall P (x_0 : vec) (u u' : tape) (dt : R) (p : P) (k : nat), tape_wf u -> tape_wf u' ->
  agree (S k) (tape_rows u) (tape_rows u') -> (k < length (tape_rows u))%nat -> (k < length (tape_rows u'))%nat ->
  forall (F : vec -> vec -> P -> vec) (xs xs' : list vec),
  integrate_rk4 F x_0 u dt p None = Ok xs -> integrate_rk4 F x_0 u' dt p None = Ok xs' ->
  forall j, (j <= k)%nat -> nth j xs [] = nth j xs' [].
Proof. exact (@rk4_causal). Qed.
Print Assumptions C02_rk4.

Theorem C02_rk4_given_mid :
  forall P (x_0 : vec) (u u' : tape) (dt : R) (p : P) (k : nat), tape_wf u -> tape_wf u' ->
  agree (S k) (tape_rows u) (tape_rows u') -> (k < length (tape_rows u))%nat -> (k < length (tape_rows u'))%nat ->
  forall (F : vec -> vec -> P -> vec) (c c' xs xs' : list vec),
  agree k c c' -> (length (tape_rows u) - 1 <= length c)%nat -> (length (tape_rows u') - 1 <= length c')%nat ->
  integrate_rk4 F x_0 u dt p (Some c) = Ok xs -> integrate_rk4 F x_0 u' dt p (Some c') = Ok xs' ->
  forall j, (j <= k)%nat -> nth j xs [] = nth j xs' [].
Proof. exact (@rk4_causal_c). Qed.
Print Assumptions C02_rk4_given_mid.

Theorem C02_trapz :
  forall P (x_0 : vec) (u u' : tape) (dt : R) (p : P) (k : nat), tape_wf u -> tape_wf u' ->
  agree (S k) (tape_rows u) (tape_rows u') -> (k < length (tape_rows u))%nat -> (k < length (tape_rows u'))%nat ->
  forall (F : vec -> vec -> P -> vec) (root : (vec -> vec) -> vec -> vec) (xs xs' : list vec),
  integrate_trapz F root x_0 u dt p = Ok xs -> integrate_trapz F root x_0 u' dt p = Ok xs' ->
  forall j, (j <= k)%nat -> nth j xs [] = nth j xs' [].
Proof. exact (fun P x_0 u u' dt p k Hu Hu' A L L' F root => implicit_causal x_0 u u' dt p k Hu Hu' A L L' (trapz_step F root)). Qed.
Print Assumptions C02_trapz.

Theorem C02_trapz_mod :
  forall P (x_0 : vec) (u u' : tape) (dt : R) (p : P) (k : nat), tape_wf u -> tape_wf u' ->
  agree (S k) (tape_rows u) (tape_rows u') -> (k < length (tape_rows u))%nat -> (k < length (tape_rows u'))%nat ->
  forall (F : vec -> vec -> P -> vec) (root : (vec -> vec) -> vec -> vec) (xs xs' : list vec),
  integrate_trapz_mod F root x_0 u dt p = Ok xs -> integrate_trapz_mod F root x_0 u' dt p = Ok xs' ->
  forall j, (j <= k)%nat -> nth j xs [] = nth j xs' [].
Proof. exact (fun P x_0 u u' dt p k Hu Hu' A L L' F root => implicit_causal x_0 u u' dt p k Hu Hu' A L L' (trapz_mod_step F root)). Qed.
Print Assumptions C02_trapz_mod.

Theorem C02_hs :
  forall P (x_0 : vec) (u u' : tape) (dt : R) (p : P) (k : nat), tape_wf u -> tape_wf u' ->
  agree (S k) (tape_rows u) (tape_rows u') -> (k < length (tape_rows u))%nat -> (k < length (tape_rows u'))%nat ->
  forall (F : vec -> vec -> P -> vec) (root : (vec -> vec) -> vec -> vec) (xs xs' : list vec),
  integrate_hs F root x_0 u dt p = Ok xs -> integrate_hs F root x_0 u' dt p = Ok xs' ->
  forall j, (j <= k)%nat -> nth j xs [] = nth j xs' [].
Proof. exact (fun P x_0 u u' dt p k Hu Hu' A L L' F root => implicit_causal x_0 u u' dt p k Hu Hu' A L L' (hs_step F root)). Qed.
Print Assumptions C02_hs.

Theorem C02_hs_mod :
  forall P (x_0 : vec) (u u' : tape) (dt : R) (p : P) (k : nat), tape_wf u -> tape_wf u' ->
  agree (S k) (tape_rows u) (tape_rows u') -> (k < length (tape_rows u))%nat -> (k < length (tape_rows u'))%nat ->
  forall (F : vec -> vec -> P -> vec) (root : (vec -> vec) -> vec -> vec) (xs xs' : list vec),
  integrate_hs_mod F root x_0 u dt p = Ok xs -> integrate_hs_mod F root x_0 u' dt p = Ok xs' ->
  forall j, (j <= k)%nat -> nth j xs [] = nth j xs' [].
Proof. exact (fun P x_0 u u' dt p k Hu Hu' A L L' F root => implicit_causal x_0 u u' dt p k Hu Hu' A L L' (hs_mod_step F root)). Qed.
Print Assumptions C02_hs_mod.

Theorem C02_hsj :
  forall P (x_0 : vec) (u u' : tape) (dt : R) (p : P) (k : nat), tape_wf u -> tape_wf u' ->
  agree (S k) (tape_rows u) (tape_rows u') -> (k < length (tape_rows u))%nat -> (k < length (tape_rows u'))%nat ->
  forall (F : vec -> vec -> P -> vec) (root : (vec -> vec) -> vec -> vec) (xs xs' : list vec),
  integrate_hsj F root x_0 u dt p = Ok xs -> integrate_hsj F root x_0 u' dt p = Ok xs' ->
  forall j, (j <= k)%nat -> nth j xs [] = nth j xs' [].
Proof. exact (fun P x_0 u u' dt p k Hu Hu' A L L' F root => implicit_causal x_0 u u' dt p k Hu Hu' A L L' (hsj_step F root)). Qed.
Print Assumptions C02_hsj.

Theorem C02_hs_parab :
  forall P (x_0 : vec) (u u' : tape) (dt : R) (p : P) (k : nat), tape_wf u -> tape_wf u' ->
  agree (S k) (tape_rows u) (tape_rows u') -> (k < length (tape_rows u))%nat -> (k < length (tape_rows u'))%nat ->
  forall (F : vec -> vec -> P -> vec) (root : (vec -> vec) -> vec -> vec) (c c' xs xs' : list vec),
  agree k c c' -> (length (tape_rows u) - 1 <= length c)%nat -> (length (tape_rows u') - 1 <= length c')%nat ->
  integrate_hs_parab F root x_0 u dt p c = Ok xs -> integrate_hs_parab F root x_0 u' dt p c' = Ok xs' ->
  forall j, (j <= k)%nat -> nth j xs [] = nth j xs' [].
Proof. exact (fun P x_0 u u' dt p k Hu Hu' A L L' F root => parab_causal x_0 u u' dt p k Hu Hu' A L L' (hs_parab_step F root) (hs_step F root)). Qed.
Print Assumptions C02_hs_parab.

Theorem C02_hs_mod_parab :
  forall P (x_0 : vec) (u u' : tape) (dt : R) (p : P) (k : nat), tape_wf u -> tape_wf u' ->
  agree (S k) (tape_rows u) (tape_rows u') -> (k < length (tape_rows u))%nat -> (k < length (tape_rows u'))%nat ->
  forall (F : vec -> vec -> P -> vec) (root : (vec -> vec) -> vec -> vec) (c c' xs xs' : list vec),
  agree k c c' -> (length (tape_rows u) - 1 <= length c)%nat -> (length (tape_rows u') - 1 <= length c')%nat ->
  integrate_hs_mod_parab F root x_0 u dt p c = Ok xs -> integrate_hs_mod_parab F root x_0 u' dt p c' = Ok xs' ->
  forall j, (j <= k)%nat -> nth j xs [] = nth j xs' [].
Proof. exact (fun P x_0 u u' dt p k Hu Hu' A L L' F root => parab_causal x_0 u u' dt p k Hu Hu' A L L' (hs_mod_parab_step F root) (hs_mod_step F root)). Qed.
Print Assumptions C02_hs_mod_parab.

Theorem C02_hsj_parab :
  forall P (x_0 : vec) (u u' : tape) (dt : R) (p : P) (k : nat), tape_wf u -> tape_wf u' ->
  agree (S k) (tape_rows u) (tape_rows u') -> (k < length (tape_rows u))%nat -> (k < length (tape_rows u'))%nat ->
  forall (F : vec -> vec -> P -> vec) (root : (vec -> vec) -> vec -> vec) (c c' xs xs' : list vec),
  agree k c c' -> (length (tape_rows u) - 1 <= length c)%nat -> (length (tape_rows u') - 1 <= length c')%nat ->
  integrate_hsj_parab F root x_0 u dt p c = Ok xs -> integrate_hsj_parab F root x_0 u' dt p c' = Ok xs' ->
  forall j, (j <= k)%nat -> nth j xs [] = nth j xs' [].
Proof. exact (fun P x_0 u u' dt p k Hu Hu' A L L' F root => parab_causal x_0 u u' dt p k Hu Hu' A L L' (hsj_parab_step F root) (hsj_step F root)). Qed.
Print Assumptions C02_hsj_parab.

Example C02_hypotheses : tape_wf ex_tape /\ tape_wf ex_tape2 /\ agree 2 (tape_rows ex_tape) (tape_rows ex_tape2) /\
  tape_rows ex_tape <> tape_rows ex_tape2 /\ (1 < length (tape_rows ex_tape))%nat /\ (1 < length (tape_rows ex_tape2))%nat.
Proof. exact ex_tapes_agree. Qed.

(** ** C03  Simulation and transcription agree *)

Theorem C03_euler :
  forall P (F : vec -> vec -> P -> vec) (p : P) (N : nat), same_size N F p ->
  forall (x x_n u u_n : vec) (dt : R), length x = N -> length x_n = N ->
  (vzero (euler_restr F x x_n u u_n dt p) <-> x_n = euler_step F x u dt p).
Proof. exact (@euler_equiv). Qed.
Print Assumptions C03_euler.

(** Only when the control is constant over the step; see the refutation below for the general case. *)
Theorem C03_rk4_constant_partial :
  forall P (F : vec -> vec -> P -> vec) (p : P) (N : nat), same_size N F p ->
  forall (x x_n u u_n : vec) (dt : R), length x = N -> length x_n = N ->
  (vzero (rk4_restr F x x_n u u_n dt p) <-> x_n = rk4_step F x u u dt p u).
Proof. exact (@rk4_equiv_const). Qed.
Print Assumptions C03_rk4_constant_partial.

Theorem C03_rk4_refuted :
  exists (F : vec -> vec -> unit -> vec) (x u u_n : vec) (dt : R),
  same_size 1 F tt /\ length x = 1%nat /\ ~ vzero (rk4_restr F x (rk4_step F x u u_n dt tt ((u +v u_n) /v 2)) u u_n dt tt).
Proof. exact (rk4_restr_refuted). Qed.
Print Assumptions C03_rk4_refuted.

Theorem C03_trapz :
  forall P (F : vec -> vec -> P -> vec) (p : P) (N : nat), same_size N F p ->
  forall (x x_n u u_n : vec) (dt : R), length x = N -> length x_n = N ->
  (vzero (trapz_opti_step F x_n x u u_n dt p) <-> vzero (trapz_restr F x x_n u u_n dt p)).
Proof. exact (@trapz_equiv). Qed.
Print Assumptions C03_trapz.

Theorem C03_hs :
  forall P (F : vec -> vec -> P -> vec) (p : P) (x x_n u u_n : vec) (dt : R),
  vzero (hs_opti_step F x_n x u u_n dt p) <-> vzero (hs_restr F x x_n u u_n dt p).
Proof. exact (@hs_equiv). Qed.
Print Assumptions C03_hs.

Theorem C03_hs_parab :
  forall P (F : vec -> vec -> P -> vec) (p : P) (x x_n u u_n u_c : vec) (dt : R),
  vzero (hs_parab_opti_step F x_n x u u_n dt p u_c) <-> vzero (hs_parab_restr F x x_n u u_n dt p u_c).
Proof. exact (@hs_parab_equiv). Qed.
Print Assumptions C03_hs_parab.

Theorem C03_trapz_mod :
  forall P (F : vec -> vec -> P -> vec) (p : P) (m : nat), same_size (2 * m) F p ->
  forall (x x_n u u_n : vec) (dt : R), length x = (2 * m)%nat -> length x_n = (2 * m)%nat ->
  (vzero (trapz_mod_opti_step F x_n x u u_n dt p) <-> vzero (trapz_mod_restr F x x_n u u_n dt p)).
Proof. exact (@trapz_mod_equiv). Qed.
Print Assumptions C03_trapz_mod.

Theorem C03_hs_mod_parab :
  forall P (F : vec -> vec -> P -> vec) (p : P) (m : nat), same_size (2 * m) F p ->
  forall (x x_n u u_n u_c : vec) (dt : R), length x = (2 * m)%nat -> length x_n = (2 * m)%nat ->
  (vzero (hs_mod_parab_opti_step F x_n x u u_n dt p u_c) <-> vzero (hs_mod_parab_restr F x x_n u u_n dt p u_c)).
Proof. exact (@hs_mod_parab_equiv). Qed.
Print Assumptions C03_hs_mod_parab.

Theorem C03_hsj_parab :
  forall P (F : vec -> vec -> P -> vec) (p : P) (m : nat), same_size (2 * m) F p ->
  forall (x x_n u u_n u_c : vec) (dt : R), length x = (2 * m)%nat -> length x_n = (2 * m)%nat ->
  (vzero (hsj_parab_opti_step F x_n x u u_n dt p u_c) <-> vzero (hsj_parab_restr F x x_n u u_n dt p u_c)).
Proof. exact (@hsj_parab_equiv). Qed.
Print Assumptions C03_hsj_parab.

Theorem C03_hs_mod :
  forall P (F : vec -> vec -> P -> vec) (p : P) (m : nat), same_size (2 * m) F p ->
  forall (x x_n u u_n : vec) (dt : R), length x = (2 * m)%nat -> length x_n = (2 * m)%nat ->
  (vzero (hs_mod_opti_step F x_n x u u_n dt p) <-> vzero (hs_mod_restr F x x_n u u_n dt p)).
Proof. exact (@hs_mod_equiv). Qed.
Print Assumptions C03_hs_mod.

Theorem C03_hsj :
  forall P (F : vec -> vec -> P -> vec) (p : P) (m : nat), same_size (2 * m) F p ->
  forall (x x_n u u_n : vec) (dt : R), length x = (2 * m)%nat -> length x_n = (2 * m)%nat ->
  (vzero (hsj_opti_step F x_n x u u_n dt p) <-> vzero (hsj_restr F x x_n u u_n dt p)).
Proof. exact (@hsj_equiv). Qed.
Print Assumptions C03_hsj.

Theorem C03_simulated_trapz :
  forall P (F : vec -> vec -> P -> vec) (p : P) (dt : R) (root : (vec -> vec) -> vec -> vec) (x_0 : vec) (u : tape) (xs : list vec) (N : nat), tape_wf u -> solves N root -> length x_0 = N -> same_size N F p ->
  solvable N (fun x y a b => trapz_restr F x y a b dt p) ->
  integrate_trapz F root x_0 u dt p = Ok xs -> forall i, (i < length (tape_rows u))%nat ->
  vzero (trapz_restr F (nth i xs []) (nth (S i) xs []) (nth i (tape_rows u) []) (next_u (tape_rows u) i) dt p).
Proof. exact (@sim_trapz). Qed.
Print Assumptions C03_simulated_trapz.

Theorem C03_simulated_hs :
  forall P (F : vec -> vec -> P -> vec) (p : P) (dt : R) (root : (vec -> vec) -> vec -> vec) (x_0 : vec) (u : tape) (xs : list vec) (N : nat), tape_wf u -> solves N root -> length x_0 = N ->
  solvable N (fun x y a b => hs_restr F x y a b dt p) ->
  integrate_hs F root x_0 u dt p = Ok xs -> forall i, (i < length (tape_rows u))%nat ->
  vzero (hs_restr F (nth i xs []) (nth (S i) xs []) (nth i (tape_rows u) []) (next_u (tape_rows u) i) dt p).
Proof. exact (@sim_hs). Qed.
Print Assumptions C03_simulated_hs.

Theorem C03_simulated_trapz_mod :
  forall P (F : vec -> vec -> P -> vec) (p : P) (dt : R) (root : (vec -> vec) -> vec -> vec) (x_0 : vec) (u : tape) (xs : list vec) (m : nat), tape_wf u -> solves (2 * m) root -> length x_0 = (2 * m)%nat -> same_size (2 * m) F p ->
  solvable (2 * m) (fun x y a b => trapz_mod_restr F x y a b dt p) ->
  integrate_trapz_mod F root x_0 u dt p = Ok xs -> forall i, (i < length (tape_rows u))%nat ->
  vzero (trapz_mod_restr F (nth i xs []) (nth (S i) xs []) (nth i (tape_rows u) []) (next_u (tape_rows u) i) dt p).
Proof. exact (@sim_trapz_mod). Qed.
Print Assumptions C03_simulated_trapz_mod.

Theorem C03_simulated_hs_mod :
  forall P (F : vec -> vec -> P -> vec) (p : P) (dt : R) (root : (vec -> vec) -> vec -> vec) (x_0 : vec) (u : tape) (xs : list vec) (m : nat), tape_wf u -> solves (2 * m) root -> length x_0 = (2 * m)%nat -> same_size (2 * m) F p ->
  solvable (2 * m) (fun x y a b => hs_mod_restr F x y a b dt p) ->
  integrate_hs_mod F root x_0 u dt p = Ok xs -> forall i, (i < length (tape_rows u))%nat ->
  vzero (hs_mod_restr F (nth i xs []) (nth (S i) xs []) (nth i (tape_rows u) []) (next_u (tape_rows u) i) dt p).
Proof. exact (@sim_hs_mod). Qed.
Print Assumptions C03_simulated_hs_mod.

Theorem C03_simulated_hsj :
  forall P (F : vec -> vec -> P -> vec) (p : P) (dt : R) (root : (vec -> vec) -> vec -> vec) (x_0 : vec) (u : tape) (xs : list vec) (m : nat), tape_wf u -> solves (2 * m) root -> length x_0 = (2 * m)%nat -> same_size (2 * m) F p ->
  solvable (2 * m) (fun x y a b => hsj_restr F x y a b dt p) ->
  integrate_hsj F root x_0 u dt p = Ok xs -> forall i, (i < length (tape_rows u))%nat ->
  vzero (hsj_restr F (nth i xs []) (nth (S i) xs []) (nth i (tape_rows u) []) (next_u (tape_rows u) i) dt p).
Proof. exact (@sim_hsj). Qed.
Print Assumptions C03_simulated_hsj.

Theorem C03_simulated_hs_parab :
  forall P (F : vec -> vec -> P -> vec) (p : P) (dt : R) (root : (vec -> vec) -> vec -> vec) (x_0 : vec) (u : tape) (xs : list vec) (N : nat) (u_c : list vec), tape_wf u -> solves N root -> length x_0 = N ->
  (forall c, solvable N (fun x y a b => hs_parab_restr F x y a b dt p c)) -> solvable N (fun x y a b => hs_restr F x y a b dt p) ->
  (length (tape_rows u) - 1 <= length u_c)%nat -> integrate_hs_parab F root x_0 u dt p u_c = Ok xs -> forall i, (i < length (tape_rows u))%nat ->
  let x := nth i xs [] in let y := nth (S i) xs [] in let a := nth i (tape_rows u) [] in
  if (S i <? length (tape_rows u))%nat
  then vzero (hs_parab_restr F x y a (nth (S i) (tape_rows u) []) dt p (nth i u_c []))
  else vzero (hs_restr F x y a a dt p).
Proof. exact (@sim_hs_parab). Qed.
Print Assumptions C03_simulated_hs_parab.

Theorem C03_simulated_hs_mod_parab :
  forall P (F : vec -> vec -> P -> vec) (p : P) (dt : R) (root : (vec -> vec) -> vec -> vec) (x_0 : vec) (u : tape) (xs : list vec) (m : nat) (u_c : list vec), tape_wf u -> solves (2 * m) root -> length x_0 = (2 * m)%nat -> same_size (2 * m) F p ->
  (forall c, solvable (2 * m) (fun x y a b => hs_mod_parab_restr F x y a b dt p c)) -> solvable (2 * m) (fun x y a b => hs_mod_restr F x y a b dt p) ->
  (length (tape_rows u) - 1 <= length u_c)%nat -> integrate_hs_mod_parab F root x_0 u dt p u_c = Ok xs -> forall i, (i < length (tape_rows u))%nat ->
  let x := nth i xs [] in let y := nth (S i) xs [] in let a := nth i (tape_rows u) [] in
  if (S i <? length (tape_rows u))%nat
  then vzero (hs_mod_parab_restr F x y a (nth (S i) (tape_rows u) []) dt p (nth i u_c []))
  else vzero (hs_mod_restr F x y a a dt p).
Proof. exact (@sim_hs_mod_parab). Qed.
Print Assumptions C03_simulated_hs_mod_parab.

Theorem C03_simulated_hsj_parab :
  forall P (F : vec -> vec -> P -> vec) (p : P) (dt : R) (root : (vec -> vec) -> vec -> vec) (x_0 : vec) (u : tape) (xs : list vec) (m : nat) (u_c : list vec), tape_wf u -> solves (2 * m) root -> length x_0 = (2 * m)%nat -> same_size (2 * m) F p ->
  (forall c, solvable (2 * m) (fun x y a b => hsj_parab_restr F x y a b dt p c)) -> solvable (2 * m) (fun x y a b => hsj_restr F x y a b dt p) ->
  (length (tape_rows u) - 1 <= length u_c)%nat -> integrate_hsj_parab F root x_0 u dt p u_c = Ok xs -> forall i, (i < length (tape_rows u))%nat ->
  let x := nth i xs [] in let y := nth (S i) xs [] in let a := nth i (tape_rows u) [] in
  if (S i <? length (tape_rows u))%nat
  then vzero (hsj_parab_restr F x y a (nth (S i) (tape_rows u) []) dt p (nth i u_c []))
  else vzero (hsj_restr F x y a a dt p).
Proof. exact (@sim_hsj_parab). Qed.
Print Assumptions C03_simulated_hsj_parab.

Example C03_simulation_hypotheses : (exists root, solves (2 * 1) root) /\ tape_wf ex_tape /\ same_size (2 * 1) ex_F tt /\
  solvable (2 * 1) (fun x y a b => trapz_mod_restr ex_F x y a b (1 / 2) tt).
Proof. exact (conj (solves_exists _) (conj ex_tape_wf (conj (proj2 ex_F_order) ex_solvable))). Qed.

Example C03_hypotheses : same_size 2 ex_F tt /\ length [1; 2] = 2%nat /\
  [2 + 1 / 2; 2 + 1] = euler_step ex_F [1 + 1 / 2; 2] [1] 1 tt -v [1; 0].
Proof. exact ex_F_size. Qed.

(** ** C04  State restrictions equal acceleration restrictions *)

Theorem C04_euler :
  forall P (F : vec -> vec -> P -> vec) (p : P) (M n : nat), (0 < M)%nat -> (0 < n)%nat -> order_form M n F p ->
  forall (x x_n u u_n : vec) (dt : R), length x = (M * n)%nat -> length x_n = (M * n)%nat ->
  forall a_n : vec, euler_accel_restr x x_n (accel n (F x u p)) a_n dt = euler_restr F x x_n u u_n dt p.
Proof. exact (@euler_accel_eq). Qed.
Print Assumptions C04_euler.

Theorem C04_trapz :
  forall P (F : vec -> vec -> P -> vec) (p : P) (M n : nat), (0 < M)%nat -> (0 < n)%nat -> order_form M n F p ->
  forall (x x_n u u_n : vec) (dt : R), length x = (M * n)%nat -> length x_n = (M * n)%nat ->
  trapz_accel_restr x x_n (accel n (F x u p)) (accel n (F x_n u_n p)) dt = trapz_restr F x x_n u u_n dt p.
Proof. exact (@trapz_accel_eq). Qed.
Print Assumptions C04_trapz.

Theorem C04_hs :
  forall P (F : vec -> vec -> P -> vec) (p : P) (M n : nat), (0 < M)%nat -> (0 < n)%nat -> order_form M n F p ->
  forall (x x_n u u_n u_c : vec) (dt : R), length x = (M * n)%nat -> length x_n = (M * n)%nat ->
  let x_c := hs_half_x x x_n (accel n (F x u p)) (accel n (F x_n u_n p)) dt in
  (vzero (hs_accel_restr x x_n (accel n (F x u p)) (accel n (F x_n u_n p)) dt (accel n (F x_c u_c p))) <->
   vzero (hs_parab_restr F x x_n u u_n dt p u_c)).
Proof. exact (@hs_accel_equiv). Qed.
Print Assumptions C04_hs.

Theorem C04_trapz_mod :
  forall P (F : vec -> vec -> P -> vec) (p : P) (m : nat), same_size (2 * m) F p ->
  forall (x x_n u u_n : vec) (dt : R), length x = (2 * m)%nat -> length x_n = (2 * m)%nat ->
  trapz_mod_accel_restr x x_n (accel m (F x u p)) (accel m (F x_n u_n p)) dt = trapz_mod_restr F x x_n u u_n dt p.
Proof. exact (@trapz_mod_accel_eq). Qed.
Print Assumptions C04_trapz_mod.

Theorem C04_hs_mod :
  forall P (F : vec -> vec -> P -> vec) (p : P) (m : nat), same_size (2 * m) F p ->
  forall (x x_n u u_n u_c : vec) (dt : R), length x = (2 * m)%nat -> length x_n = (2 * m)%nat ->
  (vzero (hs_mod_accel_restr x x_n (accel m (F x u p)) (accel m (F x_n u_n p)) dt
       (accel m (F (hs_mod_half_x x x_n (accel m (F x u p)) (accel m (F x_n u_n p)) dt) u_c p))) <->
   vzero (hs_mod_parab_restr F x x_n u u_n dt p u_c)).
Proof. exact (@hs_mod_accel_equiv). Qed.
Print Assumptions C04_hs_mod.

Theorem C04_hsj :
  forall P (F : vec -> vec -> P -> vec) (p : P) (m : nat), same_size (2 * m) F p ->
  forall (x x_n u u_n u_c : vec) (dt : R), length x = (2 * m)%nat -> length x_n = (2 * m)%nat ->
  (vzero (hsj_accel_restr x x_n (accel m (F x u p)) (accel m (F x_n u_n p)) dt
       (accel m (F (hsj_half_x x x_n (accel m (F x u p)) (accel m (F x_n u_n p)) dt) u_c p))) <->
   vzero (hsj_parab_restr F x x_n u u_n dt p u_c)).
Proof. exact (@hsj_accel_equiv). Qed.
Print Assumptions C04_hsj.

Example C04_hypotheses : order_form 2 1 ex_F tt /\ same_size 2 ex_F tt.
Proof. exact ex_F_order. Qed.

(** ** C05  Interior point formulas agree *)

Theorem C05_hs :
  forall P (F : vec -> vec -> P -> vec) (p : P) (M n : nat) (x x_n u u_n u_c : vec) (h : R),
  (0 < M)%nat -> (0 < n)%nat -> order_form M n F p -> h <> 0 -> length x = (M * n)%nat -> length x_n = (M * n)%nat ->
  let f := F x u p in let f_n := F x_n u_n p in
  let x_c := hs_half_x x x_n (accel n f) (accel n f_n) h in
  hs_midpoint x x_n f f_n h = x_c /\
  hs_parab_restr F x x_n u u_n h p u_c = x +v (h / 6) *v (f +v 4 *v F x_c u_c p +v f_n) -v x_n /\
  (vzero (hs_parab_restr F x x_n u u_n h p u_c) -> hs_interp 1 0 x x_n f f_n (h / 2) h (F x_c u_c p) = x_c).
Proof. exact (@hs_points). Qed.
Print Assumptions C05_hs.

Theorem C05_hs_mod :
  forall P (F : vec -> vec -> P -> vec) (p : P) (n : nat) (x x_n u u_n u_c : vec) (h : R),
  order_form 2 n F p -> h <> 0 -> length x = (2 * n)%nat -> length x_n = (2 * n)%nat ->
  let f := F x u p in let f_n := F x_n u_n p in
  let x_m := hs_mod_midpoint x x_n f f_n h in
  let x_c := hs_mod_half_x x x_n (accel n f) (accel n f_n) h in
  hs_mod_parab_restr F x x_n u u_n h p u_c =
    hs_mod_accel_restr x x_n (accel n f) (accel n f_n) h (accel n (F x_m u_c p)) /\
  (vzero (hs_mod_parab_restr F x x_n u u_n h p u_c) ->
   x_m = x_c /\ hs_interp 2 0 x x_n f f_n (h / 2) h (F x_c u_c p) = x_c).
Proof. exact (@hs_mod_points). Qed.
Print Assumptions C05_hs_mod.

Theorem C05_hsj :
  forall P (F : vec -> vec -> P -> vec) (p : P) (n : nat) (x x_n u u_n u_c : vec) (h : R),
  order_form 2 n F p -> h <> 0 -> length x = (2 * n)%nat -> length x_n = (2 * n)%nat ->
  let f := F x u p in let f_n := F x_n u_n p in
  let x_m := hsj_midpoint x x_n f f_n h in
  let x_c := hsj_half_x x x_n (accel n f) (accel n f_n) h in
  hsj_parab_restr F x x_n u u_n h p u_c =
    hsj_accel_restr x x_n (accel n f) (accel n f_n) h (accel n (F x_m u_c p)) /\
  (vzero (hsj_parab_restr F x x_n u u_n h p u_c) ->
   x_m = x_c /\ hsj_interp x x_n f f_n (2 * h / 5) h (F x_c u_c p) = x_c).
Proof. exact (@hsj_points). Qed.
Print Assumptions C05_hsj.

(** Constant acceleration meets every restriction. *)
Example C05_hypotheses : order_form 2 1 ex_F tt /\ vzero (hs_parab_restr ex_F [0; 0] [1 / 2; 1] [1] [1] 1 tt [1]) /\
  vzero (hs_mod_parab_restr ex_F [0; 0] [1 / 2; 1] [1] [1] 1 tt [1]) /\
  vzero (hsj_parab_restr ex_F [0; 0] [1 / 2; 1] [1] [1] 1 tt [1]).
Proof. exact ex_step_zero. Qed.

(** ** C06  Order-M schemes generalise the fixed ones *)

Theorem C06_trapz_1 :
  forall n : nat, (0 < n)%nat -> forall (x x_n a a_n : vec) (h : R), length x = n -> length x_n = n -> length a = n -> length a_n = n ->
  trapz_accel_restr x x_n a a_n h = trapz_m_accel_restr 1 x x_n a a_n h.
Proof. exact (trapz_1). Qed.
Print Assumptions C06_trapz_1.

Theorem C06_trapz_2 :
  forall (n : nat) (x x_n a a_n : vec) (h : R), length x = (2 * n)%nat -> length x_n = (2 * n)%nat -> length a = n -> length a_n = n ->
  trapz_mod_accel_restr x x_n a a_n h = trapz_m_accel_restr 2 x x_n a a_n h.
Proof. exact (trapz_2). Qed.
Print Assumptions C06_trapz_2.

Theorem C06_hs_half_1 :
  forall n : nat, (0 < n)%nat -> forall (x x_n a a_n : vec) (h : R), length x = n -> length x_n = n -> length a = n -> length a_n = n ->
  hs_half_x x x_n a a_n h = hs_m_half_x 1 x x_n a a_n h.
Proof. exact (hs_half_1). Qed.
Print Assumptions C06_hs_half_1.

Theorem C06_hs_half_2 :
  forall (n : nat) (x x_n a a_n : vec) (h : R), length x = (2 * n)%nat -> length x_n = (2 * n)%nat -> length a = n -> length a_n = n ->
  hs_mod_half_x x x_n a a_n h = hs_m_half_x 2 x x_n a a_n h.
Proof. exact (hs_half_2). Qed.
Print Assumptions C06_hs_half_2.

Theorem C06_hs_1 :
  forall n : nat, (0 < n)%nat -> forall (x x_n a a_n : vec) (h : R), length x = n -> length x_n = n -> length a = n -> length a_n = n ->
  forall a_c : vec, length a_c = n -> hs_accel_restr x x_n a a_n h a_c = hs_m_accel_restr 1 x x_n a a_n h a_c.
Proof. exact (hs_1). Qed.
Print Assumptions C06_hs_1.

Theorem C06_hs_2 :
  forall (n : nat) (x x_n a a_n : vec) (h : R), length x = (2 * n)%nat -> length x_n = (2 * n)%nat -> length a = n -> length a_n = n ->
  forall a_c : vec, length a_c = n -> hs_mod_accel_restr x x_n a a_n h a_c = hs_m_accel_restr 2 x x_n a a_n h a_c.
Proof. exact (hs_2). Qed.
Print Assumptions C06_hs_2.

Example C06_hypotheses : length [1; 2; 3; 4] = (2 * 2)%nat /\ length [5; 6] = 2%nat.
Proof. exact (conj eq_refl eq_refl). Qed.

(** ** C07  The order-M restriction is the interpolant at the end of the step *)

Theorem C07_trapz :
  forall M n : nat, (0 < M)%nat -> forall h : R, h <> 0 -> forall x x_n a a_n : vec,
  length x = (M * n)%nat -> length x_n = (M * n)%nat -> length a = n -> length a_n = n ->
  forall (c : list R) (k j : nat), tz_motion M n h x a a_n j c -> (k < M)%nat -> (j < n)%nat ->
  coord n (trapz_m_accel_restr M x x_n a a_n h) k j = coord n x_n k j - D k c h.
Proof. exact (trapz_m_value). Qed.
Print Assumptions C07_trapz.

Theorem C07_trapz_zero :
  forall M n : nat, (0 < M)%nat -> forall h : R, h <> 0 -> forall x x_n a a_n : vec,
  length x = (M * n)%nat -> length x_n = (M * n)%nat -> length a = n -> length a_n = n ->
  forall c : nat -> list R, (forall j, (j < n)%nat -> tz_motion M n h x a a_n j (c j)) ->
  (vzero (trapz_m_accel_restr M x x_n a a_n h) <-> forall j, (j < n)%nat -> passes_at M n (c j) h x_n j).
Proof. exact (trapz_m_arrives). Qed.
Print Assumptions C07_trapz_zero.

Theorem C07_hs :
  forall M n : nat, (0 < M)%nat -> forall h : R, h <> 0 -> forall x x_n a a_n : vec,
  length x = (M * n)%nat -> length x_n = (M * n)%nat -> length a = n -> length a_n = n ->
  forall a_c : vec, length a_c = n ->
  forall (c : list R) (k j : nat), hs_motion M n h x a a_c a_n j c -> (k < M)%nat -> (j < n)%nat ->
  coord n (hs_m_accel_restr M x x_n a a_n h a_c) k j = coord n x_n k j - D k c h.
Proof. exact (hs_m_value). Qed.
Print Assumptions C07_hs.

Theorem C07_hs_zero :
  forall M n : nat, (0 < M)%nat -> forall h : R, h <> 0 -> forall x x_n a a_n : vec,
  length x = (M * n)%nat -> length x_n = (M * n)%nat -> length a = n -> length a_n = n ->
  forall a_c : vec, length a_c = n ->
  forall c : nat -> list R, (forall j, (j < n)%nat -> hs_motion M n h x a a_c a_n j (c j)) ->
  (vzero (hs_m_accel_restr M x x_n a a_n h a_c) <-> forall j, (j < n)%nat -> passes_at M n (c j) h x_n j).
Proof. exact (hs_m_arrives). Qed.
Print Assumptions C07_hs_zero.

Theorem C07_hs_half :
  forall M n : nat, (0 < M)%nat -> forall h : R, h <> 0 -> forall x x_n a a_n : vec,
  length x = (M * n)%nat -> length x_n = (M * n)%nat -> length a = n -> length a_n = n ->
  forall a_c : vec, length a_c = n ->
  forall (c : list R) (k j : nat), hs_motion M n h x a a_c a_n j c -> D (M - 1) c h = coord n x_n (M - 1) j -> (k < M)%nat -> (j < n)%nat ->
  coord n (hs_m_half_x M x x_n a a_n h) k j = D k c (h / 2).
Proof. exact (hs_m_half_value). Qed.
Print Assumptions C07_hs_half.

(** The hypotheses are always satisfiable: the motions exist for all data. *)
Theorem C07_motions_exist :
  forall M n : nat, (0 < M)%nat -> forall h : R, h <> 0 -> forall (x a a_c a_n : vec) (j : nat),
  (exists c, tz_motion M n h x a a_n j c) /\ (exists c, hs_motion M n h x a a_c a_n j c).
Proof. exact (fun M n HM h Hh x a a_c a_n j => conj (tz_motion_exists M n HM h Hh x a a_n j) (hs_motion_exists M n HM h Hh x a a_c a_n j)). Qed.
Print Assumptions C07_motions_exist.

(** ** C08  Interpolated derivatives are derivatives *)

Theorem C08_trapz :
  forall M n : nat, (0 < M)%nat -> forall h : R, h <> 0 -> forall x x_n xd xdn : vec,
  length x = (M * n)%nat -> length xd = (M * n)%nat -> length xdn = (M * n)%nat ->
  forall (d i : nat) (tau : R), (i < M * n)%nat ->
  is_derive (fun t => vnth (tz_interp M d x x_n xd xdn t h) i) tau (vnth (tz_interp M (S d) x x_n xd xdn tau h) i).
Proof. exact (tz_derives). Qed.
Print Assumptions C08_trapz.

Theorem C08_hs :
  forall M n : nat, (0 < M)%nat -> forall h : R, h <> 0 -> forall x x_n xd xdn : vec,
  length x = (M * n)%nat -> length xd = (M * n)%nat -> length xdn = (M * n)%nat ->
  forall (d i : nat) (tau : R) (xdc : vec), length xdc = (M * n)%nat -> (i < M * n)%nat ->
  is_derive (fun t => vnth (hs_interp M d x x_n xd xdn t h xdc) i) tau (vnth (hs_interp M (S d) x x_n xd xdn tau h xdc) i).
Proof. exact (hs_derives). Qed.
Print Assumptions C08_hs.

Theorem C08_hsj :
  forall (n : nat) (h : R) (x x_n xd xdn xdc : vec), h <> 0 ->
  length x = (2 * n)%nat -> length xd = (2 * n)%nat -> length xdn = (2 * n)%nat -> length xdc = (2 * n)%nat ->
  forall (i : nat) (tau : R), (i < 2 * n)%nat ->
  is_derive (fun t => vnth (hsj_interp x x_n xd xdn t h xdc) i) tau (vnth (hsj_dot_interp x x_n xd xdn tau h xdc) i) /\
  is_derive (fun t => vnth (hsj_dot_interp x x_n xd xdn t h xdc) i) tau (vnth (hsj_dot_dot_interp x x_n xd xdn tau h xdc) i).
Proof. exact (hsj_derives). Qed.
Print Assumptions C08_hsj.

(** ** C09  The M-th derivative interpolates the accelerations *)

Theorem C09_trapz :
  forall M n : nat, (0 < M)%nat -> forall h : R, h <> 0 -> forall x x_n xd xdn : vec,
  length x = (M * n)%nat -> length xd = (M * n)%nat -> length xdn = (M * n)%nat ->
  forall j : nat, (j < n)%nat ->
  (forall k d tau, (S k < M)%nat -> coord n (tz_interp M (S d) x x_n xd xdn tau h) k j = coord n (tz_interp M d x x_n xd xdn tau h) (S k) j) /\
  coord n (tz_interp M 1 x x_n xd xdn 0 h) (M - 1) j = vnth (accel n xd) j /\
  coord n (tz_interp M 1 x x_n xd xdn h h) (M - 1) j = vnth (accel n xdn) j.
Proof. exact (tz_blocks). Qed.
Print Assumptions C09_trapz.

Theorem C09_hs :
  forall M n : nat, (0 < M)%nat -> forall h : R, h <> 0 -> forall x x_n xd xdn : vec,
  length x = (M * n)%nat -> length xd = (M * n)%nat -> length xdn = (M * n)%nat ->
  forall (j : nat) (xdc : vec), length xdc = (M * n)%nat -> (j < n)%nat ->
  (forall k d tau, (S k < M)%nat -> coord n (hs_interp M (S d) x x_n xd xdn tau h xdc) k j = coord n (hs_interp M d x x_n xd xdn tau h xdc) (S k) j) /\
  coord n (hs_interp M 1 x x_n xd xdn 0 h xdc) (M - 1) j = vnth (accel n xd) j /\
  coord n (hs_interp M 1 x x_n xd xdn (h / 2) h xdc) (M - 1) j = vnth (accel n xdc) j /\
  coord n (hs_interp M 1 x x_n xd xdn h h xdc) (M - 1) j = vnth (accel n xdn) j.
Proof. exact (hs_blocks). Qed.
Print Assumptions C09_hs.

Theorem C09_hsj :
  forall (n : nat) (h : R) (x x_n xd xdn xdc : vec), h <> 0 ->
  length x = (2 * n)%nat -> length xd = (2 * n)%nat -> length xdn = (2 * n)%nat -> length xdc = (2 * n)%nat ->
  forall j : nat, (j < n)%nat ->
  (forall tau, coord n (hsj_dot_interp x x_n xd xdn tau h xdc) 0 j = coord n (hsj_interp x x_n xd xdn tau h xdc) 1 j) /\
  coord n (hsj_dot_interp x x_n xd xdn 0 h xdc) 1 j = vnth (accel n xd) j /\
  coord n (hsj_dot_interp x x_n xd xdn (2 * h / 5) h xdc) 1 j = vnth (accel n xdc) j /\
  coord n (hsj_dot_interp x x_n xd xdn h h xdc) 1 j = vnth (accel n xdn) j.
Proof. exact (hsj_blocks). Qed.
Print Assumptions C09_hsj.

Example C08_hypotheses : length [1; 2; 3; 4; 5; 6] = (3 * 2)%nat /\ (0 < 3)%nat /\ (1 / 2 <> 0).
Proof. exact ex_lengths. Qed.

(** ** C10, C13  Interpolated trajectories satisfy the dynamics and are continuous *)

Theorem C10_C13_interpolated_trajectory :
  forall P (F : vec -> vec -> P -> vec) (p : P) (u_other : string -> R -> Res vec) (hermite : list R -> list vec -> list vec -> R -> vec)
    (scheme : string) (M n : nat) (h : R) (X U : list vec) (sp : sparams),
  scheme_blocks scheme (sp_order sp) = Some M -> (0 < M)%nat -> (0 < n)%nat -> order_form M n F p -> 0 < h ->
  (2 <= length X)%nat -> (forall x, In x X -> length x = (M * n)%nat) -> sp_x_dot_c sp = None -> sp_x_c sp = None ->
  steps_hold F p scheme M n h X (full_controls X U) sp ->
  exists (Y : R -> vec) (Z : nat -> R -> vec),
    (forall k t, (k < M * n)%nat -> continuous (fun s => vnth (Y s) k) t) /\
    on_samples X h Y /\
    pieces F p scheme M n h X (full_controls X U) sp Y Z /\
    (forall u_scheme ts nX nU sp', (forall t, In t ts -> 0 <= t) ->
      interpolated_array u_other hermite X U h ts p (Some F) None scheme u_scheme (Some sp) = Ok (nX, nU, sp') ->
      length nX = length ts /\ forall k, (k < length ts)%nat -> is_value_of X h Y (nth k ts 0) (nth k nX [])) /\
    (forall d ts nX sp', (0 < d)%nat -> dmax_of scheme d -> (forall t, In t ts -> 0 <= t) ->
      interpolated_array_derivative X U h ts p (Some F) None scheme d (Some sp) = Ok (nX, sp') ->
      length nX = length ts /\ forall k, (k < length ts)%nat -> is_derivative_of (M * n) X h Z d (nth k ts 0) (nth k nX [])).
Proof. exact (@driver). Qed.
Print Assumptions C10_C13_interpolated_trajectory.

(** One step, order-M trapezoidal scheme. *)
Theorem C10_trapz_m :
  forall P (F : vec -> vec -> P -> vec) (p : P) (M n : nat), (0 < M)%nat -> order_form M n F p -> forall h : R, h <> 0 ->
  forall x x_n u u_n : vec, length x = (M * n)%nat -> length x_n = (M * n)%nat ->
  vzero (trapz_m_accel_restr M x x_n (accel n (F x u p)) (accel n (F x_n u_n p)) h) ->
  let X := fun tau => tz_interp M 0 x x_n (F x u p) (F x_n u_n p) tau h in
  (X 0 = x /\ obeys_at (M * n) F p X 0 u) /\ (X h = x_n /\ obeys_at (M * n) F p X h u_n) /\ consistent_blocks M n X.
Proof. exact (@trapz_m_dynamics). Qed.
Print Assumptions C10_trapz_m.

(** One step, order-M Hermite-Simpson scheme. *)
Theorem C10_hs_m :
  forall P (F : vec -> vec -> P -> vec) (p : P) (M n : nat), (0 < M)%nat -> order_form M n F p -> forall h : R, h <> 0 ->
  forall x x_n u u_n : vec, length x = (M * n)%nat -> length x_n = (M * n)%nat -> forall u_c : vec,
  let x_c := hs_m_half_x M x x_n (accel n (F x u p)) (accel n (F x_n u_n p)) h in
  let xdc := F x_c u_c p in
  vzero (hs_m_accel_restr M x x_n (accel n (F x u p)) (accel n (F x_n u_n p)) h (accel n xdc)) ->
  let X := fun tau => hs_interp M 0 x x_n (F x u p) (F x_n u_n p) tau h xdc in
  (X 0 = x /\ obeys_at (M * n) F p X 0 u) /\ (X (h / 2) = x_c /\ obeys_at (M * n) F p X (h / 2) u_c) /\
  (X h = x_n /\ obeys_at (M * n) F p X h u_n) /\ consistent_blocks M n X.
Proof. exact (@hs_m_dynamics). Qed.
Print Assumptions C10_hs_m.

(** One step of the 2/5 scheme. *)
Theorem C10_hsj :
  forall P (F : vec -> vec -> P -> vec) (p : P) (n : nat), order_form 2 n F p -> forall h : R, h <> 0 ->
  forall x x_n u u_n u_c : vec, length x = (2 * n)%nat -> length x_n = (2 * n)%nat ->
  let x_c := hsj_half_x x x_n (accel n (F x u p)) (accel n (F x_n u_n p)) h in
  let xdc := F x_c u_c p in
  vzero (hsj_accel_restr x x_n (accel n (F x u p)) (accel n (F x_n u_n p)) h (accel n xdc)) ->
  let X := fun tau => hsj_interp x x_n (F x u p) (F x_n u_n p) tau h xdc in
  (X 0 = x /\ obeys_at (2 * n) F p X 0 u) /\ (X (2 * h / 5) = x_c /\ obeys_at (2 * n) F p X (2 * h / 5) u_c) /\
  (X h = x_n /\ obeys_at (2 * n) F p X h u_n) /\ consistent_blocks 2 n X.
Proof. exact (@hsj_dynamics). Qed.
Print Assumptions C10_hsj.

(** Scheme "hsn": the interpolation recomputes the interior point with the first-order formula, and misses the end of the step. *)
Theorem C10_hsn_refuted :
  exists (F : vec -> vec -> unit -> vec) (x x_n u u_n u_c : vec),
  order_form 2 1 F tt /\ length x = 2%nat /\ length x_n = 2%nat /\
  (let f := F x u tt in let f_n := F x_n u_n tt in
   let x_c := hs_m_half_x 2 x x_n (accel 1 f) (accel 1 f_n) 1 in
   vzero (hs_m_accel_restr 2 x x_n (accel 1 f) (accel 1 f_n) 1 (accel 1 (F x_c u_c tt))) /\
   hs_interp 2 0 x x_n f f_n 1 1 (F x_c u_c tt) = x_n /\
   hs_interp 2 0 x x_n f f_n 1 1 (F (midpoint_of "hsn" x x_n f f_n 1) u_c tt) <> x_n).
Proof. exact (hsn_refuted). Qed.
Print Assumptions C10_hsn_refuted.

Example C10_hypotheses : scheme_blocks "hs_mod" (sp_order no_params) = Some 2%nat /\ order_form 2 1 ex_F tt /\
  steps_hold ex_F tt "hs_mod" 2 1 1 ex_X (full_controls ex_X ex_U) no_params.
Proof. exact ex_driver. Qed.

(** ** C11  Exactness on polynomial motions *)

Theorem C11_trapz :
  forall M n : nat, (0 < M)%nat -> forall h : R, h <> 0 -> forall (c : nat -> list R) (x x_n : vec),
  length x = (M * n)%nat -> length x_n = (M * n)%nat ->
  (forall j, (j < n)%nat -> passes_at M n (c j) 0 x j) -> (forall j, (j < n)%nat -> passes_at M n (c j) h x_n j) ->
  forall xd xdn : vec, length xd = (M * n)%nat -> length xdn = (M * n)%nat ->
  (forall j, (j < n)%nat -> vnth (accel n xd) j = D M (c j) 0) -> (forall j, (j < n)%nat -> vnth (accel n xdn) j = D M (c j) h) ->
  (forall j, (j < n)%nat -> (length (c j) <= M + 2)%nat) ->
  vzero (trapz_m_accel_restr M x x_n (accel n xd) (accel n xdn) h) /\
  forall j k d tau, (j < n)%nat -> (k < M)%nat -> coord n (tz_interp M d x x_n xd xdn tau h) k j = D (k + d) (c j) tau.
Proof. exact (tz_exact). Qed.
Print Assumptions C11_trapz.

Theorem C11_hs :
  forall M n : nat, (0 < M)%nat -> forall h : R, h <> 0 -> forall (c : nat -> list R) (x x_n : vec),
  length x = (M * n)%nat -> length x_n = (M * n)%nat ->
  (forall j, (j < n)%nat -> passes_at M n (c j) 0 x j) -> (forall j, (j < n)%nat -> passes_at M n (c j) h x_n j) ->
  forall xd xdn : vec, length xd = (M * n)%nat -> length xdn = (M * n)%nat ->
  (forall j, (j < n)%nat -> vnth (accel n xd) j = D M (c j) 0) -> (forall j, (j < n)%nat -> vnth (accel n xdn) j = D M (c j) h) ->
  forall xdc : vec, length xdc = (M * n)%nat -> (forall j, (j < n)%nat -> vnth (accel n xdc) j = D M (c j) (h / 2)) ->
  (forall j, (j < n)%nat -> (length (c j) <= M + 3)%nat) ->
  vzero (hs_m_accel_restr M x x_n (accel n xd) (accel n xdn) h (accel n xdc)) /\
  (forall j k, (j < n)%nat -> (k < M)%nat -> coord n (hs_m_half_x M x x_n (accel n xd) (accel n xdn) h) k j = D k (c j) (h / 2)) /\
  forall j k d tau, (j < n)%nat -> (k < M)%nat -> coord n (hs_interp M d x x_n xd xdn tau h xdc) k j = D (k + d) (c j) tau.
Proof. exact (hs_exact). Qed.
Print Assumptions C11_hs.

Theorem C11_hs_top :
  forall M n : nat, (0 < M)%nat -> forall h : R, h <> 0 -> forall (c : nat -> list R) (x x_n : vec),
  length x = (M * n)%nat -> length x_n = (M * n)%nat ->
  (forall j, (j < n)%nat -> passes_at M n (c j) 0 x j) -> (forall j, (j < n)%nat -> passes_at M n (c j) h x_n j) ->
  forall xd xdn : vec, length xd = (M * n)%nat -> length xdn = (M * n)%nat ->
  (forall j, (j < n)%nat -> vnth (accel n xd) j = D M (c j) 0) -> (forall j, (j < n)%nat -> vnth (accel n xdn) j = D M (c j) h) ->
  forall xdc : vec, length xdc = (M * n)%nat -> (forall j, (j < n)%nat -> vnth (accel n xdc) j = D M (c j) (h / 2)) ->
  (forall j, (j < n)%nat -> (length (c j) <= M + 4)%nat) ->
  forall j, (j < n)%nat -> coord n (hs_m_accel_restr M x x_n (accel n xd) (accel n xdn) h (accel n xdc)) (M - 1) j = 0.
Proof. exact (hs_top_exact). Qed.
Print Assumptions C11_hs_top.

(** The motion q(t) = t^3 over a step of length 2. *)
Example C11_hypotheses : passes_at 2 1 [0; 0; 0; 1] 0 [0; 0] 0 /\ passes_at 2 1 [0; 0; 0; 1] 2 [8; 12] 0 /\
  vnth (accel 1 [0; 0]) 0 = D 2 [0; 0; 0; 1] 0 /\ vnth (accel 1 [12; 12]) 0 = D 2 [0; 0; 0; 1] 2 /\ (length [0; 0; 0; 1] <= 2 + 2)%nat.
Proof. exact ex_cubic. Qed.

(** ** C12  Interpolation hits the samples and picks the right segment *)

Theorem C12_hits_samples :
  forall P (u_other : string -> R -> Res vec) (hermite : list R -> list vec -> list vec -> R -> vec) (X U : list vec) (h : R) (ts : list R) (p : P)
    (F : option (vec -> vec -> P -> vec)) (Xd : option (list vec)) (scheme u_scheme : string) (sp : option sparams) (nX nU : list vec) (sp' : sparams),
  scheme <> "hs_scipy"%string ->
  interpolated_array u_other hermite X U h ts p F Xd scheme u_scheme sp = Ok (nX, nU, sp') -> 0 < h ->
  length nX = length ts /\
  forall k i, (k < length ts)%nat -> (i < length X)%nat -> Rabs (nth k ts 0 - INR i * h) < h * snap -> nth k nX [] = nth i X [].
Proof. exact (@interp_hits_samples). Qed.
Print Assumptions C12_hits_samples.

Theorem C12_rejects_later_times :
  forall P (u_other : string -> R -> Res vec) (hermite : list R -> list vec -> list vec -> R -> vec) (X U : list vec) (h : R) (ts : list R) (p : P)
    (F : option (vec -> vec -> P -> vec)) (Xd : option (list vec)) (scheme u_scheme : string) (sp : option sparams) (nX nU : list vec) (sp' : sparams),
  scheme <> "hs_scipy"%string ->
  interpolated_array u_other hermite X U h ts p F Xd scheme u_scheme sp = Ok (nX, nU, sp') -> 0 < h ->
  forall t, In t ts -> t < (INR (length X) - 1) * h + h * snap.
Proof. exact (@interp_no_later_times). Qed.
Print Assumptions C12_rejects_later_times.

Theorem C12_segment :
  forall (X Xd : list vec) (h t : R) (scheme : string) (sp : sparams) (i : nat),
  0 < h -> (i + 1 < length X)%nat -> length Xd = length X ->
  INR i * h + h * snap <= t <= (INR i + 1) * h - h * snap ->
  newpoint X Xd h t scheme sp =
    interp_scheme scheme sp (Z.of_nat i) (nth i X []) (nth (i + 1) X []) (nth i Xd []) (nth (i + 1) Xd []) (t - INR i * h) h.
Proof. exact (newpoint_segment). Qed.
Print Assumptions C12_segment.

Theorem C12_valid_times_answered :
  forall P (F : vec -> vec -> P -> vec) (p : P) (u_other : string -> R -> Res vec) (hermite : list R -> list vec -> list vec -> R -> vec)
    (scheme : string) (M : nat) (h : R) (X U : list vec) (ts : list R) (sp : sparams),
  scheme_blocks scheme (sp_order sp) = Some M -> 0 < h -> (2 <= length X)%nat ->
  (length U = length X \/ length X = (length U + 1)%nat) -> sp_x_dot_c sp = None -> sp_x_c sp = None ->
  (forall c, sp_u_c sp = Some c -> (length X <= length c + 1)%nat) -> ts <> [] ->
  (forall t, In t ts -> 0 <= t <= (INR (length X) - 1) * h) ->
  exists r, interpolated_array u_other hermite X U h ts p (Some F) None scheme "lin" (Some sp) = Ok r.
Proof. exact (@driver_succeeds). Qed.
Print Assumptions C12_valid_times_answered.

(** A negative time is not rejected: at t = -h the last sample is returned. *)
Theorem C12_negative_times_refuted :
  forall (u_other : string -> R -> Res vec) (hermite : list R -> list vec -> list vec -> R -> vec),
  exists (X U nX nU : list vec) (sp' : sparams),
    interpolated_array u_other hermite X U 1 [-1; 0] tt (Some (fun x u (_ : unit) => u)) None "trapz" "lin" (Some no_params) = Ok (nX, nU, sp') /\
    nth 0 nX [] = last X [] /\ last X [] <> nth 0 X [].
Proof. exact (negative_time_answered). Qed.
Print Assumptions C12_negative_times_refuted.

(** ** C14  Control interpolation *)

Theorem C14_nodes :
  forall (h : R) (y_0 y_c y_n : vec) (m : nat), h <> 0 -> length y_0 = m -> length y_c = m -> length y_n = m ->
  interp_parab 0 h y_0 y_c y_n = y_0 /\ interp_parab (h / 2) h y_0 y_c y_n = y_c /\ interp_parab h h y_0 y_c y_n = y_n /\
  interp_parab_j 0 h y_0 y_c y_n = y_0 /\ interp_parab_j (2 * h / 5) h y_0 y_c y_n = y_c /\ interp_parab_j h h y_0 y_c y_n = y_n.
Proof. exact (parab_nodes). Qed.
Print Assumptions C14_nodes.

Theorem C14_quadratic :
  forall (u_other : string -> R -> Res vec) (a b c : vec) (m : nat) (U UC : list vec) (h : R) (ts : list R) (us : string) (sp : sparams) (r : list vec),
  0 < h -> (2 <= length U)%nat -> length a = m -> length b = m -> length c = m -> us = "parab"%string \/ us = "parab_j"%string ->
  let u := fun t => a +v t *v b +v (t ^ 2) *v c in
  (forall i, (i < length U)%nat -> nth i U [] = u (INR i * h)) ->
  sp_u_c sp = Some UC -> length UC = (length U - 1)%nat ->
  (forall i, (i < length UC)%nat -> nth i UC [] = u (INR i * h + (if (us =? "parab")%string then 1 / 2 else 2 / 5) * h)) ->
  (forall t, In t ts -> 0 <= t) ->
  interpolate_u u_other U (map (fun i => INR i * h) (seq 0 (length U))) ts us sp = Ok r ->
  length r = length ts /\ forall k, (k < length ts)%nat -> is_value_of U h u (nth k ts 0) (nth k r []).
Proof. exact (quadratic_controls). Qed.
Print Assumptions C14_quadratic.

Theorem C14_linear_samples :
  forall (t0 : R) (y0 : vec) (rest : list (R * vec)) (m : nat), length y0 = m -> (forall t y, In (t, y) rest -> length y = m) ->
  increasing_from t0 (map fst rest) -> forall t y, In (t, y) ((t0, y0) :: rest) -> np_interp t0 y0 rest t = y.
Proof. exact (np_interp_node). Qed.
Print Assumptions C14_linear_samples.

Theorem C14_linear_exact :
  forall (a b : vec) (m : nat) (ts : list R), length a = m -> length b = m -> forall t0 t : R,
  increasing_from t0 ts -> t0 <= t -> (exists t1, In t1 (t0 :: ts) /\ t <= t1) ->
  np_interp t0 (a +v t0 *v b) (map (fun s => (s, a +v s *v b)) ts) t = a +v t *v b.
Proof. exact (np_interp_affine). Qed.
Print Assumptions C14_linear_exact.

Example C14_hypotheses : increasing_from 0 [1; 5 / 2] /\ (0 < 1) /\ length [1; 2] = 2%nat.
Proof. exact ex_times. Qed.

(** ** C15  Interpolation leaves its arguments unchanged *)

(** Holds for the trapezoidal schemes and whenever the interior derivatives are given. *)
Theorem C15_kept_partial :
  forall P (u_other : string -> R -> Res vec) (hermite : list R -> list vec -> list vec -> R -> vec) (X U : list vec) (h : R) (ts : list R) (p : P)
    (F : option (vec -> vec -> P -> vec)) (Xd : option (list vec)) (scheme u_scheme : string) (sp : sparams) (nX nU : list vec) (sp1 : sparams),
  interpolated_array u_other hermite X U h ts p F Xd scheme u_scheme (Some sp) = Ok (nX, nU, sp1) ->
  contains "hs" scheme = false \/ scheme = "hs_scipy"%string \/ sp_x_dot_c sp <> None -> sp1 = sp.
Proof. exact (@interpolation_keeps_dict). Qed.
Print Assumptions C15_kept_partial.

(** Two calls that share a dictionary: the second one uses the interior derivatives of the first one's data. *)
Theorem C15_refuted :
  forall (u_other : string -> R -> Res vec) (hermite : list R -> list vec -> list vec -> R -> vec),
  let call := fun a b (U : vec * vec) sp =>
    interpolated_array u_other hermite [[a]; [b]] [fst U; snd U] 1 [1 / 2] tt (Some (fun x u (_ : unit) => u)) None "hs" "lin" (Some sp) in
  exists (XA : R * R) (UA : vec * vec) (XB : R * R) (UB : vec * vec) (d1 : sparams) (r1 r2 r3 w1 w2 w3 : list vec) (d2 d3 : sparams),
    call (fst XA) (snd XA) UA no_params = Ok (r1, w1, d1) /\
    call (fst XB) (snd XB) UB d1 = Ok (r2, w2, d2) /\
    call (fst XB) (snd XB) UB no_params = Ok (r3, w3, d3) /\ r2 <> r3.
Proof. exact (stale_dict_refuted). Qed.
Print Assumptions C15_refuted.

(** ** C16  expand_F and reduce_F are inverse *)

Theorem C16_expand_casadi :
  forall P (F : vec -> vec -> P -> vec) (M n : nat) (p : P), (0 < M)%nat -> forall x u : vec, length x = (M * n)%nat ->
  expand_F_cas F M x u p = skipn n x ++ F x u p.
Proof. exact (@expand_F_cas_eq). Qed.
Print Assumptions C16_expand_casadi.

(** numpy mode, order 2 only. *)
Theorem C16_expand_numpy_partial :
  forall P (F : vec -> vec -> P -> vec) (M n : nat) (p : P), (0 < M)%nat -> (0 < n)%nat -> forall x u : vec,
  M = 2%nat -> length x = (M * n)%nat -> length (F x u p) = n -> expand_F F M x u p = Ok (skipn n x ++ F x u p).
Proof. exact (@expand_F_order2). Qed.
Print Assumptions C16_expand_numpy_partial.

(** numpy mode fails for every other order. *)
Theorem C16_expand_numpy_refuted :
  forall P (F : vec -> vec -> P -> vec) (M n : nat) (p : P), (0 < M)%nat -> (0 < n)%nat -> forall x u : vec,
  M <> 2%nat -> length x = (M * n)%nat -> length (F x u p) = n -> expand_F F M x u p = Err AssertionError.
Proof. exact (@expand_F_other). Qed.
Print Assumptions C16_expand_numpy_refuted.

Theorem C16_reduce_expand :
  forall P (F : vec -> vec -> P -> vec) (M n : nat) (p : P), (0 < M)%nat -> (0 < n)%nat -> forall x u : vec,
  length x = (M * n)%nat -> length (F x u p) = n ->
  reduce_F (expand_F_cas F M) (get_x_divisions x M) u p = F x u p.
Proof. exact (@reduce_expand). Qed.
Print Assumptions C16_reduce_expand.

Theorem C16_expand_reduce :
  forall P (F : vec -> vec -> P -> vec) (M n : nat) (p : P), (0 < M)%nat -> (0 < n)%nat -> forall x u : vec,
  order_form M n F p -> length x = (M * n)%nat ->
  expand_F_cas (fun y w q => reduce_F F (get_x_divisions y M) w q) M x u p = F x u p.
Proof. exact (@expand_reduce). Qed.
Print Assumptions C16_expand_reduce.

(** ** C17  State division and reunion are inverse *)

Theorem C17_blocks :
  forall M n : nat, (0 < M)%nat -> (0 < n)%nat -> forall (x : vec) (k : nat), length x = (M * n)%nat -> (k < M)%nat ->
  nth k (get_x_divisions x M) [] = firstn n (skipn (k * n) x).
Proof. exact (divisions_blocks). Qed.
Print Assumptions C17_blocks.

Theorem C17_concat :
  forall M n : nat, (0 < M)%nat -> (0 < n)%nat -> forall x : vec, length x = (M * n)%nat -> concat (get_x_divisions x M) = x.
Proof. exact (divisions_concat). Qed.
Print Assumptions C17_concat.

Theorem C17_reunite :
  forall M n : nat, (0 < M)%nat -> (0 < n)%nat -> forall arr x : vec, length x = (M * n)%nat -> length arr = (M * n)%nat ->
  reunite arr (get_x_divisions x M) M = x.
Proof. exact (reunite_divisions). Qed.
Print Assumptions C17_reunite.

(** ** C18  Raising the order of implicit dynamics keeps the solutions *)

Theorem C18_state_mode_x :
  forall P (F : vec -> vec -> vec -> P -> vec) (n k m : nat) (p : P), (0 < k <= m)%nat -> (0 < n)%nat ->
  (forall x xd u, length x = (k * n)%nat -> length xd = (k * n)%nat -> length (F x xd u p) = (k * n)%nat) ->
  forall x xd u : vec, length x = (m * n)%nat -> length xd = (m * n)%nat ->
  exists r, increase_order_x F n m k x xd u p = Ok r /\ length r = (m * n)%nat /\
    (vzero r <-> vzero (F (firstn (k * n) x) (firstn (k * n) xd) u p) /\
      forall i j, (k <= i < m)%nat -> (j < n)%nat -> coord n xd (i - 1) j = coord n x i j).
Proof. exact (@increase_order_x_ok). Qed.
Print Assumptions C18_state_mode_x.

(** state_mode "q": no function is ever returned. *)
Theorem C18_state_mode_q_refuted :
  forall P (F : list vec -> vec -> P -> vec) (n m k : nat), (k <= m)%nat -> increase_order_q F n m k = Err UnboundLocalError.
Proof. exact (@increase_order_q_fails). Qed.
Print Assumptions C18_state_mode_q_refuted.

Example C18_hypotheses : forall x xd u : vec, length x = (1 * 2)%nat -> length xd = (1 * 2)%nat ->
  length ((fun x xd (u : vec) (_ : unit) => xd -v x) x xd u tt) = (1 * 2)%nat.
Proof. exact ex_implicit. Qed.

(** ** C65  What the explicit steps compute *)

Theorem C65_linear_dynamics :
  forall P (p : P) (N : nat) (dt : R) (A : vec -> vec) (x u u_n u_c : vec),
  (forall y, length y = N -> length (A y) = N) ->
  (forall y z, length y = N -> length z = N -> A (y +v z) = A y +v A z) ->
  (forall k y, length y = N -> A (k *v y) = k *v A y) -> length x = N ->
  let F := fun y (_ : vec) (_ : P) => A y in
  euler_step F x u dt p = x +v dt *v A x /\
  rk4_step F x u u_n dt p u_c =
    x +v dt *v A x +v (dt ^ 2 / 2) *v A (A x) +v (dt ^ 3 / 6) *v A (A (A x)) +v (dt ^ 4 / 24) *v A (A (A (A x))).
Proof. exact (@linear_steps). Qed.
Print Assumptions C65_linear_dynamics.

Theorem C65_quadrature :
  forall P (p : P) (N : nat) (dt : R) (x u u_n u_c : vec), length x = N -> length u = N -> length u_n = N -> length u_c = N ->
  let F := fun (_ w : vec) (_ : P) => w in
  euler_step F x u dt p = x +v dt *v u /\ rk4_step F x u u_n dt p u_c = x +v (dt / 6) *v (u +v 4 *v u_c +v u_n).
Proof. exact (@quadrature_steps). Qed.
Print Assumptions C65_quadrature.
