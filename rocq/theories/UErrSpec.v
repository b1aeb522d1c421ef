(** Controls that explain a motion. *)
From Verif Require Import Prelude PwSpec.
Open Scope list_scope.
Open Scope R_scope.

(** The sum of the distances between the accelerations that the dynamics give
    with the control [u] at the state [x] and those of the motion, whose
    derivative is [x']; for states of [n] coordinates and their speeds. *)
Definition unexplained {P} (n : nat) (F : vec -> vec -> P -> vec) (p : P) (x x' u : vec) : R :=
  vsum (map (fun j => Rabs (vnth (F x u p) (n + j) - vnth x' (n + j))) (seq 0 n)).
(** The straight line between the controls [u] and [u'], at the part [xi]. *)
Definition line_control (u u' : vec) (xi : R) : vec := map2 (fun a b => a + xi * (b - a)) u u'.
(** [t] is in interval [i] of length [h], not within 1e-8 intervals of its ends. *)
Definition inside (h : R) (i : nat) (t : R) : Prop :=
  INR i * h + h / 100000000 <= t <= (INR i + 1) * h - h / 100000000.
(** [t] is the time of sample [i], or within 1e-8 intervals of it. *)
Definition on_sample (h : R) (i : nat) (t : R) : Prop := Rabs (t - INR i * h) < h / 100000000.
(** A minimiser never does worse than its first guess. *)
Definition descends (minimize : (vec -> R) -> vec -> vec) : Prop := forall f u0, f (minimize f u0) <= f u0.
