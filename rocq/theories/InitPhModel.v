(** Model of the custom initial guess of problems of several segments: class
    _Custom_init, chords/opti.py:3996-4048, with the arrays of
    _multi_pseudospectral problems, chords/opti.py:2415-2434. *)
From Coq Require Import String.
From Verif Require Import Prelude Mat PwModel PwInterpModel PhModel InitModel.
Open Scope list_scope.
Open Scope R_scope.

(** opti.py:2415-2434: opti_arrs["u"] is the vertical concatenation of the rows of
    u_like_x of the collocation points of each segment; the row after each
    segment, a knot or the end, is not in it.  These are the rows of u_like_x
    after its first one, [M], once the initial value of opti_arrs["u"] is [U]. *)
Fixpoint put_segments (ns : list nat) (M U : mat) : mat :=
  match ns with
  | [] => M
  | n :: ns' => firstn n U ++ firstn 1 (skipn n M) ++ put_segments ns' (skipn (n + 1) M) (skipn n U)
  end.
(** opti.set_initial(opti_arrs["u"], U): as in [set_all], another shape is a
    RuntimeError. *)
Definition set_u_points (ns : list nat) (M U : mat) : Res mat :=
  if ((list_sum ns =? length U)%nat && forallb (fun r => (length r =? mwidth M)%nat) U)%bool
  then Ok (firstn 1 M ++ put_segments ns (skipn 1 M) U)
  else Err RuntimeError.

(** opti.py:3996-4048 [_Custom_init.initial_guess] for scheme_mode
    "ph pseudospectral", "ph bottom-up pseudospectral" and
    "ph top-down pseudospectral": neither of the two branches on scheme_mode
    (lines 4024 and 4039) is taken, and a_guess is not read. *)
Definition custom_guess_ph (ns : list nat) (p : ini_problem) (q_guess v_guess u_guess : mat) (g : guess) : Res guess :=
  let order := ip_order p in let n_q := ip_n_q p in
  do g <- set_der order n_q 0 q_guess g;
  do M <- set_u_points ns (g_u g) u_guess; let g := with_u M g in
  set_der order n_q 1 v_guess g.
