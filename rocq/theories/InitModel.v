(** Model of the initial guesses: classes _Zero_init, _Lin_init,
    _Waypoints_init and _Custom_init, chords/opti.py:3795-4048.  What is kept
    is the initial value of each optimisation variable. *)
From Coq Require Import String.
From Verif Require Import Prelude Mat PwModel PwInterpModel PsModel UtilModel BuTdModel CostModel DispatchModel EquiModel.
Open Scope string_scope.
Open Scope list_scope.
Open Scope R_scope.

(** What the guesses read of a problem that has been set up: its class
    (scheme_mode), scheme, order, n_q, t_start, t_end, opti_arrs["t"],
    opti_arrs["t_col"] and the number of rows of opti_arrs["q_constr"]. *)
Record ini_problem := {
  ip_class : sch_class; ip_scheme : string; ip_order : nat; ip_n_q : nat;
  ip_t_start : R; ip_t_end : R; ip_t : vec; ip_t_col : vec; ip_n_constr : nat;
}.
(** The initial values in [self.opti] of the variables: x, x_d, u (one row for
    each point; in multi-segment problems u_like_x), those at the interior
    points of equispaced problems, and q_constr of top-down ones. *)
Record guess := {
  g_x : mat; g_x_d : mat; g_u : mat; g_x_c : mat; g_x_d_c : mat; g_u_c : mat; g_q_constr : mat;
}.
Definition with_x (M : mat) (g : guess) : guess :=
  {| g_x := M; g_x_d := g_x_d g; g_u := g_u g; g_x_c := g_x_c g; g_x_d_c := g_x_d_c g; g_u_c := g_u_c g; g_q_constr := g_q_constr g |}.
Definition with_x_d (M : mat) (g : guess) : guess :=
  {| g_x := g_x g; g_x_d := M; g_u := g_u g; g_x_c := g_x_c g; g_x_d_c := g_x_d_c g; g_u_c := g_u_c g; g_q_constr := g_q_constr g |}.
Definition with_u (M : mat) (g : guess) : guess :=
  {| g_x := g_x g; g_x_d := g_x_d g; g_u := M; g_x_c := g_x_c g; g_x_d_c := g_x_d_c g; g_u_c := g_u_c g; g_q_constr := g_q_constr g |}.
Definition with_x_c (M : mat) (g : guess) : guess :=
  {| g_x := g_x g; g_x_d := g_x_d g; g_u := g_u g; g_x_c := M; g_x_d_c := g_x_d_c g; g_u_c := g_u_c g; g_q_constr := g_q_constr g |}.
Definition with_x_d_c (M : mat) (g : guess) : guess :=
  {| g_x := g_x g; g_x_d := g_x_d g; g_u := g_u g; g_x_c := g_x_c g; g_x_d_c := M; g_u_c := g_u_c g; g_q_constr := g_q_constr g |}.
Definition with_u_c (M : mat) (g : guess) : guess :=
  {| g_x := g_x g; g_x_d := g_x_d g; g_u := g_u g; g_x_c := g_x_c g; g_x_d_c := g_x_d_c g; g_u_c := M; g_q_constr := g_q_constr g |}.
Definition with_q_constr (M : mat) (g : guess) : guess :=
  {| g_x := g_x g; g_x_d := g_x_d g; g_u := g_u g; g_x_c := g_x_c g; g_x_d_c := g_x_d_c g; g_u_c := g_u_c g; g_q_constr := M |}.

(** casadi's opti.set_initial(M[:, a : a + n], B).  Another shape of B is a
    RuntimeError; casadi's other ways of fitting a value to a shape are not
    modelled. *)
Definition set_cols (a n : nat) (M B : mat) : Res mat :=
  if ((length M =? length B)%nat && forallb (fun r => (length r =? n)%nat) B)%bool
  then Ok (map2 (fun r b => firstn a r ++ b ++ skipn (a + n) r) M B)
  else Err RuntimeError.
(** opti.set_initial(M, B) for a variable M: all of its columns. *)
Definition set_all (M B : mat) : Res mat :=
  if ((length M =? length B)%nat && forallb (fun r => (length r =? mwidth M)%nat) B)%bool then Ok B else Err RuntimeError.

(** opti_arrs[q_and_ders_names[i]] (e.g. opti.py:1888-1891): x[:, i n_q : (i + 1) n_q]
    if i < order, else x_d[:, -n_q:]. *)
Definition set_der (order n_q i : nat) (B : mat) (g : guess) : Res guess :=
  if (i <? order)%nat then do M <- set_cols (n_q * i) n_q (g_x g) B; Ok (with_x M g)
  else do M <- set_cols (order * n_q - n_q) n_q (g_x_d g) B; Ok (with_x_d M g).
(** opti_arrs[q_and_ders_names[i] + "_c"], opti.py:1946-1949, 1971-1974 *)
Definition set_der_c (order n_q i : nat) (B : mat) (g : guess) : Res guess :=
  if (i <? order)%nat then do M <- set_cols (n_q * i) n_q (g_x_c g) B; Ok (with_x_c M g)
  else do M <- set_cols (order * n_q - n_q) n_q (g_x_d_c g) B; Ok (with_x_d_c M g).
(** set_initial(arr, 0): as many zeros as rows. *)
Definition zeros_rows (n_q : nat) (M : mat) : mat := repeat (repeat 0 n_q) (length M).

Definition is_equi (c : sch_class) : bool := match c with Equispaced => true | _ => false end.
Definition is_td (c : sch_class) : bool := match c with TD_Pseudospectral => true | _ => false end.
Definition is_ph (c : sch_class) : bool := match c with multi_pseudospectral => true | _ => false end.
(** (M[:-1, :] + M[1:, :]) / 2 *)
Definition mid_rows (M : mat) : mat :=
  map2 (fun a b => vdivs (vadd a b) 2) (butlastn 1 M) (skipn 1 M).

(** opti.py:461-474 [_ini_guess_start] finds q, v and, if order > 1, a; casadi
    refuses set_initial(None, 0) with NotImplementedError. *)
Definition set_a_zero (p : ini_problem) (g : guess) : Res guess :=
  if (1 <? ip_order p)%nat then set_der (ip_order p) (ip_n_q p) 2 (zeros_rows (ip_n_q p) (g_x g)) g
  else Err NotImplementedError.

(** opti.py:3796-3810 [_Zero_init.initial_guess] *)
Definition zero_guess (p : ini_problem) (g : guess) : Res guess :=
  do g <- set_der (ip_order p) (ip_n_q p) 0 (zeros_rows (ip_n_q p) (g_x g)) g;
  do g <- set_der (ip_order p) (ip_n_q p) 1 (zeros_rows (ip_n_q p) (g_x g)) g;
  if is_equi (ip_class p) then set_a_zero p g else Ok g.

(** The position arguments of [_Lin_init]: "list, array, or float". *)
Inductive qarg := Q_float (r : R) | Q_array (v : vec).

(** interp_2d (piecewise.py:74-98) at all the times. *)
Definition interp_all (ts : vec) (Y : mat) (t : vec) : Res mat := mapm (interp_2d ts Y) t.

Section Guess.
  Variable real_roots : list R -> list R.

  (** opti.py:3868-3882, 3961-3967, 4041-4048: the times of q_constr. *)
  Definition constr_times (p : ini_problem) : vec :=
    tau_to_t_points (LGL real_roots (ip_n_constr p)) (ip_t_start p) (ip_t_end p).

  (** opti.py:3814-3886 [_Lin_init.initial_guess].  [N], the number of points
      of x, is the length of the times.  numpy: expand_dims of a number and
      concatenate give an array of one dimension, which interp_2d indexes with
      two indices. *)
  Definition lin_guess (p : ini_problem) (q_s q_e : qarg) (g : guess) : Res guess :=
    match q_s, q_e with
    | Q_array q_s, Q_array q_e =>
        if negb (length q_s =? length q_e)%nat then Err ValueError
        else
          let order := ip_order p in let n_q := ip_n_q p in
          let N := length (ip_t p) in
          let h := ip_t_end p - ip_t_start p in
          let ends := [ip_t_start p; ip_t_end p] in
          do q_guess <- interp_all ends [q_s; q_e] (ip_t p);
          let q_dot_guess := repeat (vdivs (vsub q_e q_s) h) N in
          do g <- set_der order n_q 0 q_guess g;
          do g <- set_der order n_q 1 q_dot_guess g;
          do g <- (if is_td (ip_class p)
                   then do c <- interp_all ends [q_s; q_e] (constr_times p);
                        do M <- set_all (g_q_constr g) c; Ok (with_q_constr M g)
                   else Ok g);
          if ((1 <? order)%nat && is_equi (ip_class p))%bool then
            do g <- set_der order n_q 2 (zeros_rows n_q (g_x g)) g;
            if sub_in "hs" (ip_scheme p) then
              do g <- set_der_c order n_q 0 (mid_rows q_guess) g;
              do g <- set_der_c order n_q 1 (skipn 1 q_dot_guess) g;
              set_der_c order n_q 2 (zeros_rows n_q (g_x_c g)) g
            else Ok g
          else Ok g
    | Q_float _, Q_float _ => Err IndexError
    | _, _ => Err ValueError
    end.

  (** numpy.gradient(Y, ts, axis=0) with edge_order 1: differences at the
      ends, inside the weights of numpy for unequal steps. *)
  Definition grad_row (ts : vec) (Y : mat) (i : nat) : vec :=
    let n := length ts in
    if (i =? 0)%nat then vdivs (vsub (mrow 1 Y) (mrow 0 Y)) (vnth ts 1 - vnth ts 0)
    else if (i =? n - 1)%nat then vdivs (vsub (mrow i Y) (mrow (i - 1) Y)) (vnth ts i - vnth ts (i - 1))
    else
      let hs := vnth ts i - vnth ts (i - 1) in
      let hd := vnth ts (i + 1) - vnth ts i in
      vadd (vadd (vscale (- hd / (hs * (hs + hd))) (mrow (i - 1) Y)) (vscale ((hd - hs) / (hs * hd)) (mrow i Y)))
           (vscale (hs / (hd * (hs + hd))) (mrow (i + 1) Y)).
  Definition gradient (ts : vec) (Y : mat) : Res mat :=
    if negb (length ts =? length Y)%nat then Err ValueError
    else if (length ts <? 2)%nat then Err ValueError
    else Ok (map (grad_row ts Y) (seq 0 (length ts))).

  (** The gradients of order 1 .. k: opti.py:3937-3946 *)
  Fixpoint gradients (ts : vec) (Y : mat) (k : nat) : Res (list mat) :=
    match k with
    | O => Ok []
    | S k' => do D <- gradient ts Y; do r <- gradients ts D k'; Ok (D :: r)
    end.

  (** concatenate(l, axis=1) *)
  Definition hcat (n : nat) (l : list mat) : mat := map (fun i => concat (map (mrow i) l)) (seq 0 n).

  (** opti.py:3890-3992 [_Waypoints_init.initial_guess] *)
  Definition waypoints_guess (p : ini_problem) (q_points : mat) (t_points : option vec) (u_points : option mat)
    (g : guess) : Res guess :=
    let tp := match t_points with
              | Some tp => tp
              | None => eq_t_arr (ip_t_start p) (ip_t_end p) (length q_points - 1)
              end in
    let N := length (ip_t p) in
    do q_guess <- interp_all tp q_points (ip_t p);
    do ders <- gradients tp q_points (Nat.max 1 (ip_order p));
    do ders_guess <- mapm (fun D => interp_all tp D (ip_t p)) ders;
    let all := q_guess :: ders_guess in
    let x_guess := hcat N (removelast all) in
    let x_dot_guess := hcat N (tl all) in
    do M <- set_all (g_x g) x_guess; let g := with_x M g in
    do M <- set_all (g_x_d g) x_dot_guess; let g := with_x_d M g in
    do g <- (if is_td (ip_class p)
             then do c <- interp_all tp q_points (constr_times p);
                  do M <- set_all (g_q_constr g) c; Ok (with_q_constr M g)
             else Ok g);
    do g <- (if (is_equi (ip_class p) && sub_in "hs" (ip_scheme p))%bool
             then do M <- set_all (g_x_c g) (mid_rows x_guess); let g := with_x_c M g in
                  do M <- set_all (g_x_d_c g) (mid_rows x_dot_guess); Ok (with_x_d_c M g)
             else Ok g);
    match u_points with
    | None => Ok g
    | Some up =>
        if is_ph (ip_class p) then
          do u <- interp_all tp up (ip_t p);
          do M <- set_all (g_u g) u; Ok (with_u M g)
        else
          do u <- interp_all tp up (ip_t_col p);
          do M <- set_all (g_u g) u; let g := with_u M g in
          if (is_equi (ip_class p) && sub_in "hs" (ip_scheme p))%bool
          then do M <- set_all (g_u_c g) (mid_rows u); Ok (with_u_c M g)
          else Ok g
    end.

  (** opti.py:3996-4048 [_Custom_init.initial_guess], for the problems of one
      segment. *)
  Definition custom_guess (p : ini_problem) (q_guess v_guess a_guess u_guess : mat) (g : guess) : Res guess :=
    let order := ip_order p in let n_q := ip_n_q p in
    do g <- set_der order n_q 0 q_guess g;
    do M <- set_all (g_u g) u_guess; let g := with_u M g in
    do g <- set_der order n_q 1 v_guess g;
    do g <- (if is_equi (ip_class p) then
               do g <- set_a_zero p g;
               if sub_in "hs" (ip_scheme p) then
                 do g <- set_der_c order n_q 0 (mid_rows q_guess) g;
                 do g <- set_der_c order n_q 1 (mid_rows v_guess) g;
                 do g <- set_der_c order n_q 2 (mid_rows a_guess) g;
                 do M <- set_all (g_u_c g) (mid_rows u_guess); Ok (with_u_c M g)
               else Ok g
             else Ok g);
    if is_td (ip_class p)
    then do c <- interp_all (ip_t p) q_guess (constr_times p);
         do M <- set_all (g_q_constr g) c; Ok (with_q_constr M g)
    else Ok g.
End Guess.
