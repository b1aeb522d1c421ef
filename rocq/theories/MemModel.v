(** Model of how the restrictions of chords/piecewise.py work in memory.  The
    definitions of PwModel give the values the restrictions return; here the
    arrays are pieces of memory that can overlap, that are copied and that are
    written in place, so that what a call does to the arrays of the caller can
    be stated.  Arrays of one dimension; the element-wise operations take
    arrays of the same length, as in PwModel. *)
From Verif Require Import Prelude PwModel NumpyModel.
Open Scope list_scope.
Open Scope R_scope.

(** ** Memory *)
(** A block of memory: the type of its elements and their values. *)
Record cell := { c_type : dtype; c_val : vec }.
Definition memory := list cell.
(** An array is a view of [a_len] elements of block [a_buf], from [a_off]. *)
Record arr := { a_buf : nat; a_off : nat; a_len : nat }.

Definition no_cell : cell := {| c_type := D_float; c_val := [] |}.
Definition cell_of (m : memory) (v : arr) : cell := nth (a_buf v) m no_cell.
(** The values of an array. *)
Definition rd (m : memory) (v : arr) : vec := slice (a_off v) (a_off v + a_len v) (c_val (cell_of m v)).
Definition set_cell (k : nat) (c : cell) (m : memory) : memory := set_slice k [c] m.

(** A computation: memory to memory, with a result or an exception. *)
Definition com (A : Type) : Type := memory -> Res (A * memory).
Definition ret {A} (a : A) : com A := fun m => Ok (a, m).
Definition fail {A} (e : exn) : com A := fun _ => Err e.
Definition mbind {A B} (c : com A) (k : A -> com B) : com B :=
  fun m => match c m with Ok (a, m') => k a m' | Err e => Err e end.
Notation "'run' x <- c ; k" := (mbind c (fun x => k)) (at level 200, x name, c at level 100, k at level 200).
Notation "'exec' c ;; k" := (mbind c (fun _ => k)) (at level 200, c at level 100, k at level 200).

(** A new array of floats: the result of an arithmetic expression. *)
Definition new (w : vec) : com arr :=
  fun m => Ok ({| a_buf := length m; a_off := 0; a_len := length w |}, m ++ [{| c_type := D_float; c_val := w |}]).
(** copy(x): a new block with the values and the type of x. *)
Definition copy_arr (x : arr) : com arr :=
  fun m => Ok ({| a_buf := length m; a_off := 0; a_len := a_len x |},
               m ++ [{| c_type := c_type (cell_of m x); c_val := rd m x |}]).
(** The values of x. *)
Definition get (x : arr) : com vec := fun m => Ok (rd m x, m).
(** The part lo .. hi - 1 of x, as a view. *)
Definition part (x : arr) (s : nat * nat) : arr :=
  {| a_buf := a_buf x; a_off := a_off x + fst s; a_len := snd s - fst s |}.
(** Numpy assigns one value to all of a slice, and as many values as it has;
    another number is a ValueError.  The values are converted to the type of
    the array. *)
Definition put (x : arr) (w : vec) : com unit :=
  fun m =>
    let c := cell_of m x in
    let w := if (length w =? 1)%nat then repeat (vnth w 0) (a_len x) else w in
    if (length w =? a_len x)%nat
    then Ok (tt, set_cell (a_buf x) {| c_type := c_type c; c_val := set_slice (a_off x) (map (store (c_type c)) w) (c_val c) |} m)
    else Err ValueError.
(** x[s] = w *)
Definition put_at (x : arr) (s : nat * nat) (w : vec) : com unit := put (part x s) w.
Definition get_at (x : arr) (s : nat * nat) : com vec := get (part x s).

(** y = x[s]: in numpy a view of the same memory ([share]), in casadi a copy. *)
Definition cut (share : bool) (x : arr) (s : nat * nat) : com arr :=
  if share then ret (part x s) else copy_arr (part x s).

(** for i in l: body(i) *)
Fixpoint for_each (l : list nat) (body : nat -> com unit) : com unit :=
  match l with [] => ret tt | i :: l' => exec body i;; for_each l' body end.
(** [f(i) for i in l] *)
Fixpoint collect {A} (l : list nat) (f : nat -> com A) : com (list A) :=
  match l with [] => ret [] | i :: l' => run a <- f i; run r <- collect l' f; ret (a :: r) end.

(** ** The helpers *)
(** piecewise.py:1011-1024 [index_div], 1-D: the slices of the first and last
    [dim] elements, of all but the first and of all but the last; with dim
    zero, [-0:] is everything and [:-0] nothing. *)
Record slices := { s_first : nat * nat; s_last : nat * nat; s_abf : nat * nat; s_abl : nat * nat }.
Definition index_div (x : arr) (order : nat) : com slices :=
  let n := a_len x in
  if (order =? 0)%nat then fail ZeroDivisionError
  else
    let dim := (n / order)%nat in
    let k := if (dim =? 0)%nat then 0%nat else (n - dim)%nat in
    ret {| s_first := (0, dim)%nat; s_last := (k, n); s_abf := (dim, n); s_abl := (0%nat, k) |}.
(** piecewise.py:1027-1031 [order_from_x_a] *)
Definition order_from_x_a (x a : arr) : com nat :=
  if (a_len a =? 0)%nat then fail ZeroDivisionError else ret (a_len x / a_len a)%nat.

(** piecewise.py:1305-1334 [get_x_divisions], 1-D. *)
Definition divisions_idx (x : arr) (order : nat) : list (nat * nat) :=
  let dim := (a_len x / order)%nat in map (fun ii => (dim * ii, dim * (ii + 1))%nat) (seq 0 order).
Definition get_x_divisions (share : bool) (x : arr) (order : nat) : com (list arr) :=
  collect (seq 0 order) (fun ii => cut share x (nth ii (divisions_idx x order) (0, 0)%nat)).

(** piecewise.py:1337-1352 [itemequal] and [_itemequal], 1-D: the shapes are
    asserted to be the same, and each item is assigned. *)
Definition itemequal (arr_to : arr) (arr_from : vec) : com unit :=
  if (length arr_from =? a_len arr_to)%nat
  then for_each (seq 0 (length arr_from)) (fun ii => put_at arr_to (ii, ii + 1)%nat [vnth arr_from ii])
  else fail AssertionError.

(** piecewise.py:1355-1358 [reunite_matrix] *)
Definition reunite_matrix (x : arr) (arr_list : list arr) (order : nat) : com unit :=
  for_each (seq 0 order) (fun ii =>
    run w <- get (nth ii arr_list {| a_buf := 0; a_off := 0; a_len := 0 |});
    put_at x (nth ii (divisions_idx x order) (0, 0)%nat) w).

Definition item (l : list arr) (i : nat) : arr := nth i l {| a_buf := 0; a_off := 0; a_len := 0 |}.

(** ** The restrictions *)
Section Restrictions.
  Variable share : bool.
  Variables (x x_n a a_n : arr) (dt : R).

  (** x_d = copy(x); x_d[all_but_last_ind] = y[all_but_first_ind]; x_d[last_ind] = a
      (e.g. piecewise.py:1175-1177) *)
  Definition x_dot_of (s : slices) (y a : arr) : com arr :=
    run x_d <- copy_arr x;
    run w <- get_at y (s_abf s); exec put_at x_d (s_abl s) w;;
    run w <- get a; exec put_at x_d (s_last s) w;;
    ret x_d.

  (** piecewise.py:1172-1178 *)
  Definition euler_accel_restr : com arr :=
    run order <- order_from_x_a x a; run s <- index_div x order;
    run x_d <- x_dot_of s x a;
    run X <- get x; run X_n <- get x_n; run D <- get x_d;
    new (X_n -v (X +v dt *v D)).

  (** piecewise.py:1189-1198 *)
  Definition trapz_accel_restr : com arr :=
    run order <- order_from_x_a x a; run s <- index_div x order;
    run x_d <- x_dot_of s x a; run x_d_n <- x_dot_of s x_n a_n;
    run X <- get x; run X_n <- get x_n; run D <- get x_d; run D_n <- get x_d_n;
    new (X_n -v (X +v (dt / 2) *v (D +v D_n))).

  (** piecewise.py:1201-1207 *)
  Definition trapz_mod_accel_restr : com arr :=
    run res <- copy_arr x; run s <- index_div x 2;
    run A <- get a; run A_n <- get a_n; run X_n <- get x_n;
    run v <- get_at x (s_last s);
    exec put_at res (s_last s) (v +v (dt / 2) *v (A +v A_n));;
    run q <- get_at x (s_first s); run v <- get_at x (s_last s);
    exec put_at res (s_first s) (q +v dt *v v +v (dt ^ 2 / 6) *v (A_n +v 2 *v A));;
    run r <- get res;
    new (X_n -v r).

  (** piecewise.py:1210-1222 *)
  Definition hs_half_x : com arr :=
    run order <- order_from_x_a x a; run s <- index_div x order;
    run x_d <- x_dot_of s x a; run x_d_n <- x_dot_of s x_n a_n;
    run X <- get x; run X_n <- get x_n; run D <- get x_d; run D_n <- get x_d_n;
    new ((X +v X_n) /v 2 +v (dt / 8) *v (D -v D_n)).

  (** piecewise.py:1225-1243; [a_c] is scheme_params *)
  Definition hs_accel_restr (a_c : arr) : com arr :=
    run order <- order_from_x_a x a; run s <- index_div x order;
    run x_d <- x_dot_of s x a; run x_d_n <- x_dot_of s x_n a_n;
    run x_c <- hs_half_x;
    run x_d_c <- x_dot_of s x_c a_c;
    run X <- get x; run X_n <- get x_n; run D <- get x_d; run D_c <- get x_d_c; run D_n <- get x_d_n;
    run res <- new (X +v (dt / 6) *v (D +v 4 *v D_c +v D_n));
    run r <- get res;
    new (X_n -v r).

  (** piecewise.py:1246-1259: the array x_c itself is returned. *)
  Definition hs_mod_half_x : com arr :=
    run x_c <- copy_arr x; run s <- index_div x 2;
    run q <- cut share x (s_first s); run v <- cut share x (s_last s); run v_n <- cut share x_n (s_last s);
    run Q <- get q; run V <- get v; run V_n <- get v_n; run A <- get a; run A_n <- get a_n;
    run q_c <- new (Q +v (dt / 32) *v (13 *v V +v 3 *v V_n) +v (dt ^ 2 / 192) *v (11 *v A -v 5 *v A_n));
    run v_c <- new ((V +v V_n) /v 2 +v (dt / 8) *v (A -v A_n));
    run w <- get q_c; exec put_at x_c (s_first s) w;;
    run w <- get v_c; exec put_at x_c (s_last s) w;;
    ret x_c.

  (** piecewise.py:1262-1271 *)
  Definition hs_mod_accel_restr (a_c : arr) : com arr :=
    run res <- copy_arr x; run s <- index_div x 2;
    run q <- cut share x (s_first s); run v <- cut share x (s_last s);
    run V <- get v; run A <- get a; run A_c <- get a_c; run A_n <- get a_n;
    exec put_at res (s_last s) (V +v (dt / 6) *v (A +v 4 *v A_c +v A_n));;
    run Q <- get q; run V <- get v;
    exec put_at res (s_first s) (Q +v dt *v V +v (dt ^ 2 / 6) *v (A +v 2 *v A_c));;
    run X_n <- get x_n; run r <- get res;
    new (X_n -v r).

  (** piecewise.py:1274-1287: the array x_c itself is returned. *)
  Definition hsj_half_x : com arr :=
    run x_c <- copy_arr x; run s <- index_div x 2;
    run q <- cut share x (s_first s); run v <- cut share x (s_last s);
    run q_n <- cut share x_n (s_first s); run v_n <- cut share x_n (s_last s);
    run Q <- get q; run V <- get v; run Q_n <- get q_n; run V_n <- get v_n; run A <- get a; run A_n <- get a_n;
    run q_c <- new ((561 *v Q +v 64 *v Q_n +v (186 * dt) *v V +v (dt ^ 2) *v (22 *v A -v 4 *v A_n)) /v 625);
    run v_c <- new ((81 *v V +v 44 *v V_n) /v 125 +v (dt / 125) *v (18 *v A -v 12 *v A_n));
    run w <- get q_c; exec put_at x_c (s_first s) w;;
    run w <- get v_c; exec put_at x_c (s_last s) w;;
    ret x_c.

  (** piecewise.py:1290-1299 *)
  Definition hsj_accel_restr (a_c : arr) : com arr :=
    run res <- copy_arr x; run s <- index_div x 2;
    run q <- cut share x (s_first s); run v <- cut share x (s_last s);
    run V <- get v; run A <- get a; run A_c <- get a_c; run A_n <- get a_n;
    exec put_at res (s_last s) (V +v (dt / 36) *v (3 *v A +v 25 *v A_c +v 8 *v A_n));;
    run Q <- get q; run V <- get v;
    exec put_at res (s_first s) (Q +v dt *v V +v (dt ^ 2 / 72) *v (9 *v A +v 25 *v A_c +v 2 *v A_n));;
    run X_n <- get x_n; run r <- get res;
    new (X_n -v r).

  (** The two loops of the functions of order M (e.g. piecewise.py:1374-1379):
      for l in range(1, M + 1), item M - l of the list takes the value
      [start l], and then [coef i] times item i + M - l of x_list is added to
      it for i in range(count l). *)
  Definition fill (M : nat) (x_list res_list : list arr) (start : nat -> com vec) (coef : nat -> R) (count : nat -> nat) : com unit :=
    for_each (seq 1 M) (fun l =>
      run t <- start l; exec itemequal (item res_list (M - l)) t;;
      for_each (seq 0 (count l)) (fun i =>
        run r <- get (item res_list (M - l)); run xi <- get (item x_list (i + M - l));
        itemequal (item res_list (M - l)) (r +v coef i *v xi))).

  (** piecewise.py:1361-1383 [generate_trapz_m_func] *)
  Definition trapz_m_accel_restr (M : nat) : com arr :=
    run res <- copy_arr x;
    run x_list <- get_x_divisions share x M;
    run res_list <- get_x_divisions share res M;
    exec fill M x_list res_list
      (fun l => run A <- get a; run A_n <- get a_n; ret ((dt ^ l * (1 / INR (fact (l + 1)))) *v (INR l *v A +v A_n)))
      (fun i => dt ^ i * (1 / INR (fact i))) (fun l => l);;
    exec reunite_matrix res res_list M;;
    run X_n <- get x_n; run r <- get res;
    new (X_n -v r).

  (** piecewise.py:1386-1438 [generate_hs_m_funcs]: [hs_m_half_x] returns the
      array x_c itself. *)
  Definition hs_m_half_x (M : nat) : com arr :=
    run x_c <- copy_arr x;
    run x_list <- get_x_divisions share x M;
    run x_n_list <- get_x_divisions share x_n M;
    run x_c_list <- get_x_divisions share x_c M;
    let v := item x_list (M - 1) in
    let v_n := item x_n_list (M - 1) in
    exec fill M x_list x_c_list
      (fun l => run V <- get v; run V_n <- get v_n; run A <- get a; run A_n <- get a_n;
        ret ((dt ^ (l - 1) / (2 ^ l * INR (fact l) * (INR l + 2)))
               *v (3 *v V_n +v (2 * INR l ^ 2 + 4 * INR l - 3) *v V)
             +v (dt ^ l / (2 ^ (l + 1) * INR (fact (l + 2))))
               *v ((2 * INR l ^ 2 + 2 * INR l - 1) *v A +v (-2 * INR l - 1) *v A_n)))
      (fun i => dt ^ i * (1 / (2 ^ i * INR (fact i)))) (fun l => l - 1)%nat;;
    exec reunite_matrix x_c x_c_list M;;
    ret x_c.
  Definition hs_m_accel_restr (M : nat) (a_c : arr) : com arr :=
    run res <- copy_arr x;
    run x_list <- get_x_divisions share x M;
    run res_list <- get_x_divisions share res M;
    exec fill M x_list res_list
      (fun l => run A <- get a; run A_n <- get a_n; run A_c <- get a_c;
        ret ((dt ^ l / INR (fact (l + 2))) *v ((INR l ^ 2) *v A +v (4 * INR l) *v A_c +v (2 - INR l) *v A_n)))
      (fun i => dt ^ i * (1 / INR (fact i))) (fun l => l);;
    exec reunite_matrix res res_list M;;
    run X_n <- get x_n; run r <- get res;
    new (X_n -v r).
End Restrictions.
