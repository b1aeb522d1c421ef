(** Vocabulary for the initial guesses. *)
From Verif Require Import Prelude Mat PsModel DispatchModel EquiModel InitModel.
Open Scope R_scope.

(** The initial value at point [j] of the derivative of order [i] of q: one of
    the [order] blocks of x or, for the highest, the last of x_d. *)
Definition der_guess (order n_q i : nat) (g : guess) (j : nat) : vec :=
  if (i <? order)%nat then firstn n_q (skipn (n_q * i) (mrow j (g_x g)))
  else lastn n_q (mrow j (g_x_d g)).
Definition der_guess_c (order n_q i : nat) (g : guess) (j : nat) : vec :=
  if (i <? order)%nat then firstn n_q (skipn (n_q * i) (mrow j (g_x_c g)))
  else lastn n_q (mrow j (g_x_d_c g)).

(** A problem just set up: everything is zero. *)
Definition fresh (g : guess) (n m nu nc n_constr n_q : nat) : Prop :=
  g_x g = repeat (repeat 0 m) n /\ g_x_d g = repeat (repeat 0 m) n /\ g_q_constr g = repeat (repeat 0 n_q) n_constr /\
  g_x_c g = repeat (repeat 0 m) nc /\ g_x_d_c g = repeat (repeat 0 m) nc /\ shaped nc nu (g_u_c g).

(** The point at time [t] of the straight line that is at [a] at time [t0]
    and at [b] at time [t1]. *)
Definition line (t0 t1 : R) (a b : vec) (t : R) : vec :=
  map2 (fun x y => x + (t - t0) / (t1 - t0) * (y - x)) a b.

(** [v] is the value at [t] of the polygonal line through the waypoints [Y]
    at times [ts]. *)
Definition polyline (ts : vec) (Y : mat) (t : R) (v : vec) : Prop :=
  exists i, (i + 1 < length ts)%nat /\ vnth ts i <= t <= vnth ts (i + 1) /\
    v = line (vnth ts i) (vnth ts (i + 1)) (mrow i Y) (mrow (i + 1) Y) t.

(** Slopes at the waypoints: at the ends, of the straight line to the
    neighbour; inside, of the parabola through the point and its neighbours. *)
Definition slopes (ts : vec) (Y D : mat) (m : nat) : Prop :=
  let n := length ts in
  shaped n m D /\
  forall c, (c < m)%nat ->
    let y i := vnth (mrow i Y) c in
    let d i := vnth (mrow i D) c in
    (forall k b, y 0%nat = k + b * vnth ts 0 -> y 1%nat = k + b * vnth ts 1 -> d 0%nat = b) /\
    (forall k b, y (n - 2)%nat = k + b * vnth ts (n - 2) -> y (n - 1)%nat = k + b * vnth ts (n - 1) -> d (n - 1)%nat = b) /\
    (forall i, (0 < i)%nat -> (i + 1 < n)%nat -> forall k b a,
      (forall j, (i - 1 <= j <= i + 1)%nat -> y j = k + b * vnth ts j + a * (vnth ts j * vnth ts j)) ->
      d i = b + 2 * a * vnth ts i).
(** Waypoints and their successive slopes. *)
Definition successive_slopes (ts : vec) (Ds : list mat) (m : nat) : Prop :=
  forall k, (k + 1 < length Ds)%nat -> slopes ts (nth k Ds []) (nth (k + 1) Ds []) m.

(** The times of the waypoints: those given, or equally spaced. *)
Definition way_times (p : ini_problem) (q_points : mat) (t_points : option vec) : vec :=
  match t_points with Some t => t | None => eq_t_arr (ip_t_start p) (ip_t_end p) (length q_points - 1) end.
(** The times of the controls. *)
Definition u_times (p : ini_problem) : vec := if is_ph (ip_class p) then ip_t p else ip_t_col p.
(** All the times [t] are between the first and the last of [ts]. *)
Definition within_times (ts t : vec) : Prop := Forall (fun s => vnth ts 0 <= s <= vnth ts (length ts - 1)) t.
(** The same line continued by constants before the first time and after the
    last one. *)
Definition held_line (ts : vec) (Y : mat) (t : R) (v : vec) : Prop :=
  (vnth ts 0 <= t <= vnth ts (length ts - 1) -> polyline ts Y t v) /\
  (t <= vnth ts 0 -> v = mrow 0 Y) /\ (vnth ts (length ts - 1) <= t -> v = mrow (length ts - 1) Y).
