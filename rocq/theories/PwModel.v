(** Model of chords/piecewise.py: schemes, integrators, restrictions,
    interpolators.  Conventions:
    - floats are reals, 1-D arrays are [vec], the dynamics [F] is any function
      of (x, u, params);
    - elementwise operations on arrays of equal shape are zips; operations on
      arrays of different shapes are outside the model (numpy raises or
      broadcasts), theorems carry the shape hypotheses;
    - casadi matrices behave like the numpy ones and are not modelled apart. *)
From Coq Require Import String.
From Verif Require Import Prelude.
Open Scope R_scope.
Open Scope vec_scope.

(** ** Helpers *)

(** piecewise.py:59-71 [vec_len] on a 1-D array. *)
Definition vec_len (x : vec) : nat := length x.

(** A control tape: a numpy array of shape (n,) ([tape_2d = false], rows are
    one-element vectors) or (n, k) ([tape_2d = true]). *)
Record tape := { tape_2d : bool; tape_rows : list vec }.

(** piecewise.py:59-71 [vec_len] on a control tape: size 1 gives 1; a 2-D
    array with a single row gives its number of COLUMNS; otherwise the number
    of rows. *)
Definition tape_len (u : tape) : nat :=
  if (length (concat (tape_rows u)) =? 1)%nat then 1%nat
  else if tape_2d u && (length (tape_rows u) =? 1)%nat
       then length (hd [] (tape_rows u))
       else length (tape_rows u).

(** Python indexing a[i] with an int: negative counts from the end. *)
Definition pyget {A} (l : list A) (i : Z) : Res A :=
  let n := Z.of_nat (length l) in
  let j := if (i <? 0)%Z then (n + i)%Z else i in
  if ((j <? 0) || (n <=? j))%Z then Err IndexError
  else match nth_error l (Z.to_nat j) with
       | Some a => Ok a
       | None => Err IndexError
       end.

(** piecewise.py:101-117 [extend_array]: repeat the last row. *)
Definition extend_array {A} (x : list A) : Res (list A) :=
  do l <- pyget x (-1)%Z; Ok (x ++ [l]).

(** ** Expansion and reduction of dynamics *)

(** piecewise.py:120-238 [expand_F], numpy mode, 1-D x.
    [x.shape[-1] // order], slice, the shape assertion, concatenation. *)
Definition expand_F {P} (F : vec -> vec -> P -> vec) (order : nat)
  (x u : vec) (p : P) : Res vec :=
  let a := F x u p in
  let dim := (length x / order)%nat in
  let v := skipn dim x in
  if (length a =? length v)%nat then Ok (v ++ a) else Err AssertionError.

(** piecewise.py:203-222 [expand_F], casadi mode, 1 row: no assertion. *)
Definition expand_F_cas {P} (F : vec -> vec -> P -> vec) (order : nat)
  (x u : vec) (p : P) : vec :=
  let a := F x u p in
  let dim := (length x / order)%nat in
  skipn dim x ++ a.

(** piecewise.py:1305-1334 [get_x_divisions] (1-D). *)
Definition get_x_divisions (x : vec) (order : nat) : list vec :=
  let dim := (length x / order)%nat in
  map (fun ii => slice (dim * ii) (dim * (ii + 1)) x) (seq 0 order).

(** piecewise.py:241-297 [expand_G]: G takes the list of blocks; note that
    [order] is used to cut the state but NOT forwarded to [expand_F]
    (line 296), which therefore uses its default 2. *)
Definition expand_G {P} (G : list vec -> vec -> P -> vec) (order : nat)
  (x u : vec) (p : P) : Res vec :=
  expand_F (fun x u p => G (get_x_divisions x order) u p) 2 x u p.
Definition expand_G_cas {P} (G : list vec -> vec -> P -> vec) (order : nat)
  (x u : vec) (p : P) : vec :=
  expand_F_cas (fun x u p => G (get_x_divisions x order) u p) 2 x u p.

(** piecewise.py:300-384 [reduce_F]: blocks are concatenated, the last [dim]
    entries of the result are kept.  [order] is not used by the code. *)
Definition reduce_F {P} (F : vec -> vec -> P -> vec)
  (q_and_der : list vec) (u : vec) (p : P) : vec :=
  let dim := length (hd [] q_and_der) in
  lastn dim (F (concat q_and_der) u p).

(** piecewise.py:387-549 [increase_order_implicit_func], state_mode "x",
    numpy mode, 1-D.  [F x x' u p] is the old residual. *)
Definition increase_order_x {P} (F : vec -> vec -> vec -> P -> vec)
  (n_q new_order old_order : nat) (x xd u : vec) (p : P) : Res vec :=
  if negb (old_order <=? new_order)%nat then Err AssertionError
  else if negb (length x =? length xd)%nat then Err AssertionError
  else if negb (length x =? new_order * n_q)%nat then Err AssertionError
  else
    let q_and_der := get_x_divisions x new_order in
    let q_d_and_der := get_x_divisions xd new_order in
    let x_old := concat (firstn old_order q_and_der) in
    let x_d_old := concat (firstn old_order q_d_and_der) in
    let old_result := F x_old x_d_old u p in
    let old_div := get_x_divisions old_result old_order in
    let intermediate :=
      map (fun ii => nth ii q_and_der [] -v nth (ii - 1) q_d_and_der [])
          (seq old_order (new_order - old_order)) in
    Ok (concat (firstn (length old_div - 1) old_div ++ intermediate
                ++ skipn (length old_div - 1) old_div)).

(** Same function, state_mode "q" (piecewise.py:470-486 and 545-549): the
    inner function is bound to [newF], but line 548 reads [new_F]: the
    generator raises NameError (UnboundLocalError, a subclass) before
    returning anything. *)
Definition increase_order_q {P} (F : list vec -> vec -> P -> vec)
  (n_q new_order old_order : nat) : Res (list vec -> vec -> P -> vec) :=
  if negb (old_order <=? new_order)%nat then Err AssertionError
  else Err UnboundLocalError.

(** ** Steps *)
Section Steps.
  Context {P : Type}.
  Variable F : vec -> vec -> P -> vec.

  (** piecewise.py:555-556 *)
  Definition euler_step (x u : vec) (dt : R) (p : P) : vec :=
    x +v dt *v F x u p.

  (** piecewise.py:559-564 *)
  Definition rk4_step (x u u_n : vec) (dt : R) (p : P) (u_c : vec) : vec :=
    let k1 := F x u p in
    let k2 := F (x +v (dt / 2) *v k1) u_c p in
    let k3 := F (x +v (dt / 2) *v k2) u_c p in
    let k4 := F (x +v dt *v k3) u_n p in
    x +v (dt / 6) *v (k1 +v 2 *v k2 +v 2 *v k3 +v k4).

  (** piecewise.py:567-571 *)
  Definition trapz_opti_step (x_n x u u_n : vec) (dt : R) (p : P) : vec :=
    let f := F x u p in
    let f_n := F x_n u_n p in
    x +v (dt / 2) *v (f +v f_n) -v x_n.

  (** piecewise.py:582-589 *)
  Definition trapz_mod_opti_step (x_n x u u_n : vec) (dt : R) (p : P) : vec :=
    let dim := (vec_len x / 2)%nat in
    let f := skipn dim (F x u p) in
    let f_n := skipn dim (F x_n u_n p) in
    let res := set_slice dim
      (skipn dim x +v (dt / 2) *v (f +v f_n) -v skipn dim x_n) x in
    set_slice 0
      (firstn dim x +v dt *v skipn dim x +v (dt ^ 2 / 6) *v (f_n +v 2 *v f)
       -v firstn dim x_n) res.

  (** piecewise.py:600-616 *)
  Definition hs_opti_step (x_n x u u_n : vec) (dt : R) (p : P) : vec :=
    let f := F x u p in
    let f_n := F x_n u_n p in
    let u_c := (u +v u_n) /v 2 in
    let x_c := (x +v x_n) /v 2 +v (dt / 8) *v (f -v f_n) in
    let f_c := F x_c u_c p in
    x +v (dt / 6) *v (f +v 4 *v f_c +v f_n) -v x_n.

  (** piecewise.py:665-680 *)
  Definition hs_parab_opti_step (x_n x u u_n : vec) (dt : R) (p : P) (u_c : vec) : vec :=
    let f := F x u p in
    let f_n := F x_n u_n p in
    let x_c := (x +v x_n) /v 2 +v (dt / 8) *v (f -v f_n) in
    let f_c := F x_c u_c p in
    x +v (dt / 6) *v (f +v 4 *v f_c +v f_n) -v x_n.

  (** piecewise.py:691-717 *)
  Definition hs_mod_parab_opti_step (x_n x u u_n : vec) (dt : R) (p : P) (u_c : vec) : vec :=
    let dim := (vec_len x / 2)%nat in
    let f := skipn dim (F x u p) in
    let f_n := skipn dim (F x_n u_n p) in
    let q := firstn dim x in
    let v := skipn dim x in
    let q_n := firstn dim x_n in
    let v_n := skipn dim x_n in
    let q_c := (13 *v q +v 3 *v q_n) /v 16 +v (5 * dt / 16) *v v
               +v (dt ^ 2 / 96) *v (4 *v f -v f_n) in
    let v_c := (v +v v_n) /v 2 +v (dt / 8) *v (f -v f_n) in
    let x_c := set_slice dim v_c (set_slice 0 q_c x) in
    let f_c := skipn dim (F x_c u_c p) in
    let res := set_slice dim (v +v (dt / 6) *v (f +v 4 *v f_c +v f_n) -v v_n) x in
    set_slice 0 (q +v dt *v v +v (dt ^ 2 / 6) *v (f +v 2 *v f_c) -v q_n) res.

  (** piecewise.py:627-654: same with u_c = (u + u_n)/2 *)
  Definition hs_mod_opti_step (x_n x u u_n : vec) (dt : R) (p : P) : vec :=
    let dim := (vec_len x / 2)%nat in
    let f := skipn dim (F x u p) in
    let f_n := skipn dim (F x_n u_n p) in
    let q := firstn dim x in
    let v := skipn dim x in
    let q_n := firstn dim x_n in
    let v_n := skipn dim x_n in
    let u_c := (u +v u_n) /v 2 in
    let q_c := (13 *v q +v 3 *v q_n) /v 16 +v (5 * dt / 16) *v v
               +v (dt ^ 2 / 96) *v (4 *v f -v f_n) in
    let v_c := (v +v v_n) /v 2 +v (dt / 8) *v (f -v f_n) in
    let x_c := set_slice dim v_c (set_slice 0 q_c x) in
    let f_c := skipn dim (F x_c u_c p) in
    let res := set_slice dim (v +v (dt / 6) *v (f +v 4 *v f_c +v f_n) -v v_n) x in
    set_slice 0 (q +v dt *v v +v (dt ^ 2 / 6) *v (f +v 2 *v f_c) -v q_n) res.

  (** piecewise.py:730-757 *)
  Definition hsj_opti_step (x_n x u u_n : vec) (dt : R) (p : P) : vec :=
    let dim := (vec_len x / 2)%nat in
    let f := skipn dim (F x u p) in
    let f_n := skipn dim (F x_n u_n p) in
    let q := firstn dim x in
    let v := skipn dim x in
    let q_n := firstn dim x_n in
    let v_n := skipn dim x_n in
    let u_c := (6 / 10) *v u +v (4 / 10) *v u_n in
    let q_c := q +v (dt / 625) *v (218 *v v +v 32 *v v_n)
               +v (dt ^ 2 / 1875) *v (82 *v f -v 28 *v f_n) in
    let v_c := (81 *v v +v 44 *v v_n) /v 125 +v (dt / 125) *v (18 *v f -v 12 *v f_n) in
    let x_c := set_slice dim v_c (set_slice 0 q_c x) in
    let f_c := skipn dim (F x_c u_c p) in
    let res := set_slice dim (v +v (dt / 36) *v (3 *v f +v 25 *v f_c +v 8 *v f_n) -v v_n) x in
    set_slice 0 (q +v dt *v v +v (dt ^ 2 / 72) *v (9 *v f +v 25 *v f_c +v 2 *v f_n) -v q_n) res.

  (** piecewise.py:768-795 *)
  Definition hsj_parab_opti_step (x_n x u u_n : vec) (dt : R) (p : P) (u_c : vec) : vec :=
    let dim := (vec_len x / 2)%nat in
    let f := skipn dim (F x u p) in
    let f_n := skipn dim (F x_n u_n p) in
    let q := firstn dim x in
    let v := skipn dim x in
    let q_n := firstn dim x_n in
    let v_n := skipn dim x_n in
    let q_c := q +v (dt / 625) *v (218 *v v +v 32 *v v_n)
               +v (dt ^ 2 / 1875) *v (82 *v f -v 28 *v f_n) in
    let v_c := (81 *v v +v 44 *v v_n) /v 125 +v (dt / 125) *v (18 *v f -v 12 *v f_n) in
    let x_c := set_slice dim v_c (set_slice 0 q_c x) in
    let f_c := skipn dim (F x_c u_c p) in
    let res := set_slice dim (v +v (dt / 36) *v (3 *v f +v 25 *v f_c +v 8 *v f_n) -v v_n) x in
    set_slice 0 (q +v dt *v v +v (dt ^ 2 / 72) *v (9 *v f +v 25 *v f_c +v 2 *v f_n) -v q_n) res.

  (** scipy.optimize.root: an arbitrary function from residual and guess to
      the returned [.x] (the success flag is never looked at by the code). *)
  Variable root : (vec -> vec) -> vec -> vec.

  (** piecewise.py:574-579 *)
  Definition trapz_step (x u u_n : vec) (dt : R) (p : P) : vec :=
    root (fun x_n => trapz_opti_step x_n x u u_n dt p) (euler_step x u dt p).
  (** piecewise.py:592-597 *)
  Definition trapz_mod_step (x u u_n : vec) (dt : R) (p : P) : vec :=
    root (fun x_n => trapz_mod_opti_step x_n x u u_n dt p) (euler_step x u dt p).
  (** piecewise.py:619-624 *)
  Definition hs_step (x u u_n : vec) (dt : R) (p : P) : vec :=
    root (fun x_n => hs_opti_step x_n x u u_n dt p) (euler_step x u dt p).
  (** piecewise.py:657-662 *)
  Definition hs_mod_step (x u u_n : vec) (dt : R) (p : P) : vec :=
    root (fun x_n => hs_mod_opti_step x_n x u u_n dt p) (euler_step x u dt p).
  (** piecewise.py:683-688 *)
  Definition hs_parab_step (x u u_n : vec) (dt : R) (p : P) (u_c : vec) : vec :=
    root (fun x_n => hs_parab_opti_step x_n x u u_n dt p u_c) (euler_step x u dt p).
  (** piecewise.py:720-727 *)
  Definition hs_mod_parab_step (x u u_n : vec) (dt : R) (p : P) (u_c : vec) : vec :=
    root (fun x_n => hs_mod_parab_opti_step x_n x u u_n dt p u_c) (euler_step x u dt p).
  (** piecewise.py:760-765 *)
  Definition hsj_step (x u u_n : vec) (dt : R) (p : P) : vec :=
    root (fun x_n => hsj_opti_step x_n x u u_n dt p) (euler_step x u dt p).
  (** piecewise.py:797-802 *)
  Definition hsj_parab_step (x u u_n : vec) (dt : R) (p : P) (u_c : vec) : vec :=
    root (fun x_n => hsj_parab_opti_step x_n x u u_n dt p u_c) (euler_step x u dt p).

  (** ** Integrators.  The Python loops append [step(x[-1], ...)] to a list;
      here the loop carries the last state and the accumulated list. *)

  (** Loop [for ii in range(n)] of integrate_euler, from index [ii]. *)
  Fixpoint loop (step : nat -> vec -> Res vec) (ii n : nat) (x : vec) : Res (list vec) :=
    match n with
    | O => Ok [x]
    | S n' => do x' <- step ii x; do rest <- loop step (S ii) n' x'; Ok (x :: rest)
    end.

  (** piecewise.py:868-876 (after the decorator) *)
  Definition integrate_euler (x_0 : vec) (u : tape) (dt : R) (p : P) : Res (list vec) :=
    loop (fun ii x => do ui <- pyget (tape_rows u) (Z.of_nat ii);
                      Ok (euler_step x ui dt p))
         0 (tape_len u) x_0.

  (** Common shape of the other integrators (piecewise.py:879-1006): for
      ii < vec_len(u)-1 a step with u[ii], u[ii+1]; then a last step with
      u[-1], u[-1]. *)
  Definition integrate_with (step last : nat -> vec -> vec -> vec -> Res vec)
    (x_0 : vec) (u : tape) : Res (list vec) :=
    let n := tape_len u in
    do xs <- loop (fun ii x =>
                     do ui <- pyget (tape_rows u) (Z.of_nat ii);
                     do un <- pyget (tape_rows u) (Z.of_nat (ii + 1));
                     step ii x ui un) 0 (n - 1) x_0;
    do ul <- pyget (tape_rows u) (-1)%Z;
    do xl <- pyget xs (-1)%Z;
    do xf <- last 0%nat xl ul ul;
    Ok (xs ++ [xf]).

  (** (u[:-1] + u[1:]) / 2 *)
  Definition mid_controls (rows : list vec) : list vec :=
    map2 (fun a b => (a +v b) /v 2) (butlastn 1 rows) (skipn 1 rows).

  (** piecewise.py:879-893 *)
  Definition integrate_rk4 (x_0 : vec) (u : tape) (dt : R) (p : P)
    (u_c : option (list vec)) : Res (list vec) :=
    let uc := match u_c with Some c => c | None => mid_controls (tape_rows u) end in
    integrate_with
      (fun ii x ui un => do c <- pyget uc (Z.of_nat ii); Ok (rk4_step x ui un dt p c))
      (fun _ x ui un => Ok (rk4_step x ui un dt p ui)) x_0 u.

  (** piecewise.py:896-906 *)
  Definition integrate_trapz x_0 u dt p :=
    integrate_with (fun _ x ui un => Ok (trapz_step x ui un dt p))
                   (fun _ x ui un => Ok (trapz_step x ui un dt p)) x_0 u.
  (** piecewise.py:909-919 *)
  Definition integrate_trapz_mod x_0 u dt p :=
    integrate_with (fun _ x ui un => Ok (trapz_mod_step x ui un dt p))
                   (fun _ x ui un => Ok (trapz_mod_step x ui un dt p)) x_0 u.
  (** piecewise.py:922-932 *)
  Definition integrate_hs x_0 u dt p :=
    integrate_with (fun _ x ui un => Ok (hs_step x ui un dt p))
                   (fun _ x ui un => Ok (hs_step x ui un dt p)) x_0 u.
  (** piecewise.py:935-945 *)
  Definition integrate_hs_mod x_0 u dt p :=
    integrate_with (fun _ x ui un => Ok (hs_mod_step x ui un dt p))
                   (fun _ x ui un => Ok (hs_mod_step x ui un dt p)) x_0 u.
  (** piecewise.py:948-961: the last step uses hs_step *)
  Definition integrate_hs_parab x_0 u dt p (u_c : list vec) :=
    integrate_with (fun ii x ui un => do c <- pyget u_c (Z.of_nat ii);
                                      Ok (hs_parab_step x ui un dt p c))
                   (fun _ x ui un => Ok (hs_step x ui un dt p)) x_0 u.
  (** piecewise.py:964-977: the last step uses hs_mod_step *)
  Definition integrate_hs_mod_parab x_0 u dt p (u_c : list vec) :=
    integrate_with (fun ii x ui un => do c <- pyget u_c (Z.of_nat ii);
                                      Ok (hs_mod_parab_step x ui un dt p c))
                   (fun _ x ui un => Ok (hs_mod_step x ui un dt p)) x_0 u.
  (** piecewise.py:980-990 *)
  Definition integrate_hsj x_0 u dt p :=
    integrate_with (fun _ x ui un => Ok (hsj_step x ui un dt p))
                   (fun _ x ui un => Ok (hsj_step x ui un dt p)) x_0 u.
  (** piecewise.py:993-1006: the last step uses hsj_step *)
  Definition integrate_hsj_parab x_0 u dt p (u_c : list vec) :=
    integrate_with (fun ii x ui un => do c <- pyget u_c (Z.of_nat ii);
                                      Ok (hsj_parab_step x ui un dt p c))
                   (fun _ x ui un => Ok (hsj_step x ui un dt p)) x_0 u.

  (** piecewise.py:828-865 [coherent_dimensions], for a 1-D x_0.
      [probe_ok] says whether F(x_0, u, params) on the whole tape returns
      without TypeError; then a 1-D tape is taken to be a single step. *)
  Definition coherent_tape (probe_ok : bool) (x_0 : vec) (u : tape) : tape :=
    if negb (tape_2d u) && negb (length x_0 =? 2)%nat && probe_ok
    then {| tape_2d := true; tape_rows := [concat (tape_rows u)] |}
    else u.

  (** ** Schemes as restrictions *)

  (** piecewise.py:1034-1035 *)
  Definition euler_restr (x x_n u u_n : vec) (dt : R) (p : P) : vec :=
    x_n -v (x +v dt *v F x u p).

  (** piecewise.py:1038-1043: every stage uses u *)
  Definition rk4_restr (x x_n u u_n : vec) (dt : R) (p : P) : vec :=
    let k1 := F x u p in
    let k2 := F (x +v (dt / 2) *v k1) u p in
    let k3 := F (x +v (dt / 2) *v k2) u p in
    let k4 := F (x +v dt *v k3) u p in
    x_n -v (x +v (dt / 6) *v (k1 +v 2 *v k2 +v 2 *v k3 +v k4)).

  (** piecewise.py:1046-1049 *)
  Definition trapz_restr (x x_n u u_n : vec) (dt : R) (p : P) : vec :=
    let f := F x u p in
    let f_n := F x_n u_n p in
    x_n -v (x +v (dt / 2) *v (f +v f_n)).

  (** Index sets of piecewise.py:1012-1024 [index_div] on 1-D arrays. *)
  Definition get_last (dim : nat) (x : vec) : vec := lastn dim x.
  Definition get_first (dim : nat) (x : vec) : vec := firstn dim x.
  Definition put_last (dim : nat) (vals x : vec) : vec := set_slice (length x - dim) vals x.
  Definition put_first (dim : nat) (vals x : vec) : vec := set_slice 0 vals x.
  Definition all_but_first (dim : nat) (x : vec) : vec := skipn dim x.

  (** piecewise.py:1052-1060 *)
  Definition trapz_mod_restr (x x_n u u_n : vec) (dt : R) (p : P) : vec :=
    let dim := (vec_len x / 2)%nat in
    let f := get_last dim (F x u p) in
    let f_n := get_last dim (F x_n u_n p) in
    let res := put_last dim (get_last dim x +v (dt / 2) *v (f +v f_n)) x in
    let res := put_first dim (get_first dim x +v dt *v get_last dim x
                              +v (dt ^ 2 / 6) *v (f_n +v 2 *v f)) res in
    x_n -v res.

  (** piecewise.py:1063-1069 *)
  Definition hs_restr (x x_n u u_n : vec) (dt : R) (p : P) : vec :=
    let f := F x u p in
    let f_n := F x_n u_n p in
    let x_c := (x +v x_n) /v 2 +v (dt / 8) *v (f -v f_n) in
    let u_c := (u +v u_n) /v 2 in
    let f_c := F x_c u_c p in
    x +v (dt / 6) *v (f +v 4 *v f_c +v f_n) -v x_n.

  (** piecewise.py:1072-1091 *)
  Definition hs_mod_restr (x x_n u u_n : vec) (dt : R) (p : P) : vec :=
    let dim := (vec_len x / 2)%nat in
    let f := get_last dim (F x u p) in
    let f_n := get_last dim (F x_n u_n p) in
    let q := get_first dim x in
    let v := get_last dim x in
    let q_n := get_first dim x_n in
    let v_n := get_last dim x_n in
    let u_c := (u +v u_n) /v 2 in
    let q_c := (13 *v q +v 3 *v q_n) /v 16 +v (5 * dt / 16) *v v
               +v (dt ^ 2 / 96) *v (4 *v f -v f_n) in
    let v_c := (v +v v_n) /v 2 +v (dt / 8) *v (f -v f_n) in
    let x_c := put_last dim v_c (put_first dim q_c x) in
    let f_c := get_last dim (F x_c u_c p) in
    let res := put_last dim (v +v (dt / 6) *v (f +v 4 *v f_c +v f_n)) x in
    let res := put_first dim (q +v dt *v v +v (dt ^ 2 / 6) *v (f +v 2 *v f_c)) res in
    x_n -v res.

  (** piecewise.py:1094-1100 *)
  Definition hs_parab_restr (x x_n u u_n : vec) (dt : R) (p : P) (u_c : vec) : vec :=
    let f := F x u p in
    let f_n := F x_n u_n p in
    let x_c := (x +v x_n) /v 2 +v (dt / 8) *v (f -v f_n) in
    let f_c := F x_c u_c p in
    x +v (dt / 6) *v (f +v 4 *v f_c +v f_n) -v x_n.

  (** piecewise.py:1103-1122 *)
  Definition hs_mod_parab_restr (x x_n u u_n : vec) (dt : R) (p : P) (u_c : vec) : vec :=
    let dim := (vec_len x / 2)%nat in
    let f := get_last dim (F x u p) in
    let f_n := get_last dim (F x_n u_n p) in
    let q := get_first dim x in
    let v := get_last dim x in
    let q_n := get_first dim x_n in
    let v_n := get_last dim x_n in
    let q_c := (13 *v q +v 3 *v q_n) /v 16 +v (5 * dt / 16) *v v
               +v (dt ^ 2 / 96) *v (4 *v f -v f_n) in
    let v_c := (v +v v_n) /v 2 +v (dt / 8) *v (f -v f_n) in
    let x_c := put_last dim v_c (put_first dim q_c x) in
    let f_c := get_last dim (F x_c u_c p) in
    let res := put_last dim (v +v (dt / 6) *v (f +v 4 *v f_c +v f_n)) x in
    let res := put_first dim (q +v dt *v v +v (dt ^ 2 / 6) *v (f +v 2 *v f_c)) res in
    x_n -v res.

  (** piecewise.py:1125-1144 *)
  Definition hsj_restr (x x_n u u_n : vec) (dt : R) (p : P) : vec :=
    let dim := (vec_len x / 2)%nat in
    let f := get_last dim (F x u p) in
    let f_n := get_last dim (F x_n u_n p) in
    let q := get_first dim x in
    let v := get_last dim x in
    let v_n := get_last dim x_n in
    let u_c := (6 / 10) *v u +v (4 / 10) *v u_n in
    let q_c := q +v (dt / 625) *v (218 *v v +v 32 *v v_n)
               +v (dt ^ 2 / 1875) *v (82 *v f -v 28 *v f_n) in
    let v_c := (81 *v v +v 44 *v v_n) /v 125 +v (dt / 125) *v (18 *v f -v 12 *v f_n) in
    let x_c := put_last dim v_c (put_first dim q_c x) in
    let f_c := get_last dim (F x_c u_c p) in
    let res := put_last dim (v +v (dt / 36) *v (3 *v f +v 25 *v f_c +v 8 *v f_n)) x in
    let res := put_first dim (q +v dt *v v +v (dt ^ 2 / 72) *v (9 *v f +v 25 *v f_c +v 2 *v f_n)) res in
    x_n -v res.

  (** piecewise.py:1147-1166 *)
  Definition hsj_parab_restr (x x_n u u_n : vec) (dt : R) (p : P) (u_c : vec) : vec :=
    let dim := (vec_len x / 2)%nat in
    let f := get_last dim (F x u p) in
    let f_n := get_last dim (F x_n u_n p) in
    let q := get_first dim x in
    let v := get_last dim x in
    let v_n := get_last dim x_n in
    let q_c := q +v (dt / 625) *v (218 *v v +v 32 *v v_n)
               +v (dt ^ 2 / 1875) *v (82 *v f -v 28 *v f_n) in
    let v_c := (81 *v v +v 44 *v v_n) /v 125 +v (dt / 125) *v (18 *v f -v 12 *v f_n) in
    let x_c := put_last dim v_c (put_first dim q_c x) in
    let f_c := get_last dim (F x_c u_c p) in
    let res := put_last dim (v +v (dt / 36) *v (3 *v f +v 25 *v f_c +v 8 *v f_n)) x in
    let res := put_first dim (q +v dt *v v +v (dt ^ 2 / 72) *v (9 *v f +v 25 *v f_c +v 2 *v f_n)) res in
    x_n -v res.

End Steps.

(** ** Schemes as acceleration restrictions *)

(** piecewise.py:1027-1031 *)
Definition order_from_x_a (x a : vec) : nat := (vec_len x / vec_len a)%nat.

(** The recurring "x_d = copy(x); x_d[all_but_last] = y[all_but_first];
    x_d[last] = a" (e.g. piecewise.py:1175-1177). *)
Definition x_dot_of (dim : nat) (x y a : vec) : vec :=
  put_last dim a (put_first dim (all_but_first dim y) x).

(** piecewise.py:1172-1178 *)
Definition euler_accel_restr (x x_n a a_n : vec) (dt : R) : vec :=
  let dim := (vec_len x / order_from_x_a x a)%nat in
  let x_d := x_dot_of dim x x a in
  x_n -v (x +v dt *v x_d).

(** piecewise.py:1189-1198 *)
Definition trapz_accel_restr (x x_n a a_n : vec) (dt : R) : vec :=
  let dim := (vec_len x / order_from_x_a x a)%nat in
  let x_d := x_dot_of dim x x a in
  let x_d_n := x_dot_of dim x x_n a_n in
  x_n -v (x +v (dt / 2) *v (x_d +v x_d_n)).

(** piecewise.py:1201-1207 *)
Definition trapz_mod_accel_restr (x x_n a a_n : vec) (dt : R) : vec :=
  let dim := (vec_len x / 2)%nat in
  let res := put_last dim (get_last dim x +v (dt / 2) *v (a +v a_n)) x in
  let res := put_first dim (get_first dim x +v dt *v get_last dim x
                            +v (dt ^ 2 / 6) *v (a_n +v 2 *v a)) res in
  x_n -v res.

(** piecewise.py:1210-1222 *)
Definition hs_half_x (x x_n a a_n : vec) (dt : R) : vec :=
  let dim := (vec_len x / order_from_x_a x a)%nat in
  let x_d := x_dot_of dim x x a in
  let x_d_n := x_dot_of dim x x_n a_n in
  (x +v x_n) /v 2 +v (dt / 8) *v (x_d -v x_d_n).

(** piecewise.py:1225-1243 *)
Definition hs_accel_restr (x x_n a a_n : vec) (dt : R) (a_c : vec) : vec :=
  let dim := (vec_len x / order_from_x_a x a)%nat in
  let x_d := x_dot_of dim x x a in
  let x_d_n := x_dot_of dim x x_n a_n in
  let x_c := hs_half_x x x_n a a_n dt in
  let x_d_c := x_dot_of dim x x_c a_c in
  let res := x +v (dt / 6) *v (x_d +v 4 *v x_d_c +v x_d_n) in
  x_n -v res.

(** piecewise.py:1246-1259 *)
Definition hs_mod_half_x (x x_n a a_n : vec) (dt : R) : vec :=
  let dim := (vec_len x / 2)%nat in
  let q := get_first dim x in
  let v := get_last dim x in
  let v_n := get_last dim x_n in
  let q_c := q +v (dt / 32) *v (13 *v v +v 3 *v v_n)
             +v (dt ^ 2 / 192) *v (11 *v a -v 5 *v a_n) in
  let v_c := (v +v v_n) /v 2 +v (dt / 8) *v (a -v a_n) in
  put_last dim v_c (put_first dim q_c x).

(** piecewise.py:1262-1271 *)
Definition hs_mod_accel_restr (x x_n a a_n : vec) (dt : R) (a_c : vec) : vec :=
  let dim := (vec_len x / 2)%nat in
  let q := get_first dim x in
  let v := get_last dim x in
  let res := put_last dim (v +v (dt / 6) *v (a +v 4 *v a_c +v a_n)) x in
  let res := put_first dim (q +v dt *v v +v (dt ^ 2 / 6) *v (a +v 2 *v a_c)) res in
  x_n -v res.

(** piecewise.py:1274-1287 *)
Definition hsj_half_x (x x_n a a_n : vec) (dt : R) : vec :=
  let dim := (vec_len x / 2)%nat in
  let q := get_first dim x in
  let v := get_last dim x in
  let q_n := get_first dim x_n in
  let v_n := get_last dim x_n in
  let q_c := (561 *v q +v 64 *v q_n +v (186 * dt) *v v
              +v (dt ^ 2) *v (22 *v a -v 4 *v a_n)) /v 625 in
  let v_c := (81 *v v +v 44 *v v_n) /v 125 +v (dt / 125) *v (18 *v a -v 12 *v a_n) in
  put_last dim v_c (put_first dim q_c x).

(** piecewise.py:1290-1299 *)
Definition hsj_accel_restr (x x_n a a_n : vec) (dt : R) (a_c : vec) : vec :=
  let dim := (vec_len x / 2)%nat in
  let q := get_first dim x in
  let v := get_last dim x in
  let res := put_last dim (v +v (dt / 36) *v (3 *v a +v 25 *v a_c +v 8 *v a_n)) x in
  let res := put_first dim (q +v dt *v v +v (dt ^ 2 / 72) *v (9 *v a +v 25 *v a_c +v 2 *v a_n)) res in
  x_n -v res.

(** ** Order M *)

(** piecewise.py:1355-1358 [reunite_matrix]: write block ii at its place. *)
Definition reunite (arr : vec) (blocks : list vec) (order : nat) : vec :=
  let dim := (length arr / order)%nat in
  fold_left (fun acc ii => set_slice (dim * ii) (nth ii blocks []) acc)
            (seq 0 order) arr.

(** The repeated "itemequal(list[M-l], list[M-l] + c * x_list[i+M-l])" loop. *)
Definition accum (start : vec) (terms : list vec) : vec :=
  fold_left (fun acc t => acc +v t) terms start.

(** piecewise.py:1361-1383 [generate_trapz_m_func].  Block M-l of the result. *)
Definition trapz_m_block (M l : nat) (x_list : list vec) (a a_n : vec) (dt : R) : vec :=
  accum ((dt ^ l * (1 / INR (fact (l + 1)))) *v (INR l *v a +v a_n))
        (map (fun i => (dt ^ i * (1 / INR (fact i))) *v nth (i + M - l) x_list [])
             (seq 0 l)).
Definition trapz_m_accel_restr (M : nat) (x x_n a a_n : vec) (dt : R) : vec :=
  let x_list := get_x_divisions x M in
  let res_list := map (fun pos => trapz_m_block M (M - pos) x_list a a_n dt) (seq 0 M) in
  x_n -v reunite x res_list M.

(** piecewise.py:1386-1438 [generate_hs_m_funcs]. *)
Definition hs_m_half_block (M l : nat) (x_list : list vec) (v v_n a a_n : vec) (dt : R) : vec :=
  accum
    ((dt ^ (l - 1) / (2 ^ l * INR (fact l) * (INR l + 2)))
       *v (3 *v v_n +v (2 * INR l ^ 2 + 4 * INR l - 3) *v v)
     +v (dt ^ l / (2 ^ (l + 1) * INR (fact (l + 2))))
       *v ((2 * INR l ^ 2 + 2 * INR l - 1) *v a +v (-2 * INR l - 1) *v a_n))
    (map (fun i => (dt ^ i * (1 / (2 ^ i * INR (fact i)))) *v nth (i + M - l) x_list [])
         (seq 0 (l - 1))).
Definition hs_m_half_x (M : nat) (x x_n a a_n : vec) (dt : R) : vec :=
  let x_list := get_x_divisions x M in
  let x_n_list := get_x_divisions x_n M in
  let v := last x_list [] in
  let v_n := last x_n_list [] in
  reunite x (map (fun pos => hs_m_half_block M (M - pos) x_list v v_n a a_n dt) (seq 0 M)) M.

Definition hs_m_block (M l : nat) (x_list : list vec) (a a_n a_c : vec) (dt : R) : vec :=
  accum
    ((dt ^ l / INR (fact (l + 2)))
       *v ((INR l ^ 2) *v a +v (4 * INR l) *v a_c +v (2 - INR l) *v a_n))
    (map (fun i => (dt ^ i * (1 / INR (fact i))) *v nth (i + M - l) x_list [])
         (seq 0 l)).
Definition hs_m_accel_restr (M : nat) (x x_n a a_n : vec) (dt : R) (a_c : vec) : vec :=
  let x_list := get_x_divisions x M in
  x_n -v reunite x (map (fun pos => hs_m_block M (M - pos) x_list a a_n a_c dt) (seq 0 M)) M.

(** ** Interpolations *)

(** piecewise.py:1454-1456 *)
Definition interp_parab (tau h : R) (y_0 y_c y_n : vec) : vec :=
  let xi := tau / h in
  y_0 +v xi *v (-3 *v y_0 +v 4 *v y_c -v y_n) +v (2 * xi ^ 2) *v (y_0 -v 2 *v y_c +v y_n).

(** piecewise.py:1459-1465 *)
Definition interp_parab_j (tau h : R) (y_0 y_c y_n : vec) : vec :=
  let xi := tau / h in
  y_0 +v (xi / 6) *v (-21 *v y_0 +v 25 *v y_c -v 4 *v y_n)
      +v (xi ^ 2 / 6) *v (15 *v y_0 -v 25 *v y_c +v 10 *v y_n).

(** piecewise.py:1481-1483 *)
Definition hs_midpoint (x x_n x_dot x_dot_n : vec) (h : R) : vec :=
  (x +v x_n) /v 2 +v (h / 8) *v (x_dot -v x_dot_n).

(** piecewise.py:1486-1491 *)
Definition hs_mod_midpoint (x x_n x_dot x_dot_n : vec) (h : R) : vec :=
  let dim := (vec_len x / 2)%nat in
  let q := firstn dim x in let v := skipn dim x in
  let q_n := firstn dim x_n in let v_n := skipn dim x_n in
  let f := skipn dim x_dot in let f_n := skipn dim x_dot_n in
  let v_c := (v +v v_n) /v 2 +v (h / 8) *v (f -v f_n) in
  let q_c := (13 *v q +v 3 *v q_n +v (5 * h) *v v) /v 16 +v (h ^ 2 / 96) *v (4 *v f -v f_n) in
  q_c ++ v_c.

(** piecewise.py:1494-1499 *)
Definition hsj_midpoint (x x_n x_dot x_dot_n : vec) (h : R) : vec :=
  let dim := (vec_len x / 2)%nat in
  let q := firstn dim x in let v := skipn dim x in
  let v_n := skipn dim x_n in
  let f := skipn dim x_dot in let f_n := skipn dim x_dot_n in
  let q_c := q +v (h / 625) *v (218 *v v +v 32 *v v_n)
             +v (h ^ 2 / 1875) *v (82 *v f -v 28 *v f_n) in
  let v_c := (81 *v v +v 44 *v v_n) /v 125 +v (h / 125) *v (18 *v f -v 12 *v f_n) in
  q_c ++ v_c.

(** [range(lo, lo+n)] over possibly negative ints. *)
Definition zrange (lo : Z) (n : nat) : list Z := map (fun k => (lo + Z.of_nat k)%Z) (seq 0 n).

(** One block of the interpolators: "x_interp_list[pos][:] = 0; for i in
    range(n_terms): += tau**i / fac(i) * x_list[i+M-l]" with l possibly
    negative (derivatives above the order give an empty range). *)
Definition interp_block (M : nat) (l : Z) (n_terms : Z) (dim : nat) (ext : list vec) (tau : R) : vec :=
  accum (repeat 0 dim)
    (map (fun i => (tau ^ i / INR (fact i)) *v nth (Z.to_nat (Z.of_nat i + Z.of_nat M - l)) ext [])
         (seq 0 (Z.to_nat n_terms))).

(** piecewise.py:1563-1587 [generate_tz_interp]; numpy blocks are views, so
    writing them writes [x_interp]. *)
Definition tz_interp (M deriv : nat) (x x_n x_dot x_dot_n : vec) (tau h : R) : vec :=
  let dim := (length x / M)%nat in
  let x_list := get_x_divisions x M in
  let a := last (get_x_divisions x_dot M) [] in
  let a_n := last (get_x_divisions x_dot_n M) [] in
  let ext := x_list ++ [a; ((-1) *v a +v a_n) /v h] in
  (* block pos = M - l - deriv, for l in range(1-deriv, M+1-deriv) *)
  let blocks := map (fun pos => let l := (Z.of_nat M - Z.of_nat deriv - Z.of_nat pos)%Z in
                                interp_block M l (l + 2) dim ext tau) (seq 0 M) in
  reunite x blocks M.

(** piecewise.py:1590-1620 [generate_hs_interp] *)
Definition hs_interp (M deriv : nat) (x x_n x_dot x_dot_n : vec) (tau h : R) (x_dot_c : vec) : vec :=
  let dim := (length x / M)%nat in
  let x_list := get_x_divisions x M in
  let a := last (get_x_divisions x_dot M) [] in
  let a_n := last (get_x_divisions x_dot_n M) [] in
  let a_c := last (get_x_divisions x_dot_c M) [] in
  let ext := x_list ++ [a; ((-3) *v a +v 4 *v a_c -v a_n) /v h;
                        (4 *v a -v 8 *v a_c +v 4 *v a_n) /v (h ^ 2)] in
  let blocks := map (fun pos => let l := (Z.of_nat M - Z.of_nat deriv - Z.of_nat pos)%Z in
                                interp_block M l (l + 3) dim ext tau) (seq 0 M) in
  reunite x blocks M.

(** piecewise.py:1623-1643 *)
Definition hsj_interp (x x_n x_dot x_dot_n : vec) (tau h : R) (x_dot_c : vec) : vec :=
  let dim := (vec_len x / 2)%nat in
  let f_c := skipn dim x_dot_c in
  let q := firstn dim x in let v := skipn dim x in
  let f := skipn dim x_dot in let f_n := skipn dim x_dot_n in
  (q +v tau *v v +v (1 / 2 * tau ^ 2) *v f
     +v (1 / 36 * tau ^ 3 / h) *v (-21 *v f +v 25 *v f_c -v 4 *v f_n)
     +v (1 / 72 * tau ^ 4 / h ^ 2) *v (15 *v f -v 25 *v f_c +v 10 *v f_n))
  ++ (v +v tau *v f
     +v (1 / 12 * tau ^ 2 / h) *v (-21 *v f +v 25 *v f_c -v 4 *v f_n)
     +v (1 / 18 * tau ^ 3 / h ^ 2) *v (15 *v f -v 25 *v f_c +v 10 *v f_n)).

(** piecewise.py:2199-2218 *)
Definition hsj_dot_interp (x x_n x_dot x_dot_n : vec) (tau h : R) (x_dot_c : vec) : vec :=
  let dim := (vec_len x / 2)%nat in
  let f_c := skipn dim x_dot_c in
  let v := skipn dim x in
  let f := skipn dim x_dot in let f_n := skipn dim x_dot_n in
  (v +v tau *v f
     +v (1 / 12 * tau ^ 2 / h) *v (-21 *v f +v 25 *v f_c -v 4 *v f_n)
     +v (1 / 18 * tau ^ 3 / h ^ 2) *v (15 *v f -v 25 *v f_c +v 10 *v f_n))
  ++ (f
     +v (1 / 6 * tau / h) *v (-21 *v f +v 25 *v f_c -v 4 *v f_n)
     +v (1 / 6 * tau ^ 2 / h ^ 2) *v (15 *v f -v 25 *v f_c +v 10 *v f_n)).

(** piecewise.py:2307-2323 *)
Definition hsj_dot_dot_interp (x x_n x_dot x_dot_n : vec) (tau h : R) (x_dot_c : vec) : vec :=
  let dim := (vec_len x / 2)%nat in
  let f_c := skipn dim x_dot_c in
  let f := skipn dim x_dot in let f_n := skipn dim x_dot_n in
  (f
     +v (1 / 6 * tau / h) *v (-21 *v f +v 25 *v f_c -v 4 *v f_n)
     +v (1 / 6 * tau ^ 2 / h ^ 2) *v (15 *v f -v 25 *v f_c +v 10 *v f_n))
  ++ ((1 / 6 / h) *v (-21 *v f +v 25 *v f_c -v 4 *v f_n)
     +v (1 / 3 * tau / h ^ 2) *v (15 *v f -v 25 *v f_c +v 10 *v f_n)).
