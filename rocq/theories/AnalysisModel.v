(** Model of chords/analysis.py: dynamic errors, interpolation of a result, of
    one or several segments, and the small array functions.

    An "interpolations" dictionary holds arrays with one row for each sample
    time.  Here it is a list with, for each sample, the entries of the
    dictionary at that sample: interpolations[k] is the list of the entries
    under k.  Plotting, warnings and the scipy splines are left out. *)
From Coq Require Import String.
From Verif Require Import Prelude Poly Mat PwModel PwInterpModel PsModel UtilModel BuTdModel PhModel DispatchModel.
Open Scope R_scope.
Open Scope vec_scope.
Open Scope list_scope.

(** numpy.linspace(a, b, n) *)
Definition linspace (a b : R) (n : nat) : vec :=
  map (fun i => a + INR i * ((b - a) / INR (n - 1))) (seq 0 n).

(** ** Keys of the dictionary *)
(** KX i is "x" + "_d" * i, KQ j i is names[j] + "_d" * i with
    names = get_q_and_ders_names(problem_order) = ["q", "v", "a", ...]. *)
Inductive key := KX (i : nat) | KQ (j i : nat) | KU | KT | KF.
Definition key_eqb (a b : key) : bool :=
  match a, b with
  | KX i, KX i' => (i =? i')%nat
  | KQ j i, KQ j' i' => ((j =? j') && (i =? i'))%nat
  | KU, KU | KT, KT | KF, KF => true
  | _, _ => false
  end.
(** The string of a key (analysis.py:440, 637, 640; opti.py:125-129). *)
Definition base_name (j : nat) : string :=
  nth j ["q"; "v"; "a"; "jerk"; "snap"; "crackle"; "pop"]%string
    (String.append "d" (String.append (py_str j) "q")).
Fixpoint with_d (s : string) (i : nat) : string :=
  match i with O => s | S i' => with_d (String.append s "_d") i' end.
Definition key_name (k : key) : string :=
  match k with
  | KX i => with_d "x" i | KQ j i => with_d (base_name j) i
  | KU => "u" | KT => "t" | KF => "f"
  end%string.

Definition row := list (key * vec).
(** d[k] and d[k] = v *)
Fixpoint get (k : key) (d : row) : Res vec :=
  match d with
  | [] => Err KeyError
  | (k', v) :: d' => if key_eqb k k' then Ok v else get k d'
  end.
Definition put (k : key) (v : vec) (d : row) : row := (k, v) :: d.

(** ** Results *)
(** The entries of a result dictionary that [interpolation] reads; those that
    depend on res["scheme_mode"] are in [r_kind]. *)
Inductive kind :=
| Equispaced (x_c x_d_c u_c : mat)          (* read only by the hs schemes *)
| Pseudo (q_node v_node x_node : mat)
| BottomUp
| TopDown (q_constr : mat).
Record result := {
  r_scheme : string; r_solve_order : nat;
  r_x : mat; r_x_d : mat; r_u : mat; r_t : vec; r_kind : kind }.

(** ** Several segments (analysis.py:299-364) *)
(** The entries of a result of mode "ph ...". *)
Record ph_result := {
  h_mode : ph_mode; h_scheme : string; h_solve_order : nat; h_n_q : nat; h_n_segments : nat;
  h_x : mat; h_t : vec; h_t_knot : vec; h_t_knot_ext : vec;
  h_x_col : list mat; h_x_d_col : list mat; h_u_col : list mat; h_t_col : list vec;
  h_x_knot_ext : list vec; h_x_d_knot_ext : list vec; h_q_constr : list mat }.

(** analysis.py:309-362: the problem of segment ii_seg. *)
Definition sub_problem (r : ph_result) (ii_seg : nat) : result :=
  let scheme := h_scheme r in
  let xx := nth ii_seg (h_x_col r) [] in
  let xx_d := nth ii_seg (h_x_d_col r) [] in
  let uu := nth ii_seg (h_u_col r) [] in
  let ts := nth ii_seg (h_t_col r) [] in
  let x_s := nth ii_seg (h_x_knot_ext r) [] in
  let x_f := nth (ii_seg + 1) (h_x_knot_ext r) [] in
  let x_d_s := nth ii_seg (h_x_d_knot_ext r) [] in
  let x_d_f := nth (ii_seg + 1) (h_x_d_knot_ext r) [] in
  let t_s := slice ii_seg (ii_seg + 1) (h_t_knot_ext r) in
  let t_f := slice (ii_seg + 1) (ii_seg + 2) (h_t_knot_ext r) in
  let '(xx, xx_d, ts) :=
    if mem scheme (gauss_like ++ gauss_inv ++ radau_inv)
    then ([x_s] ++ xx, [x_d_s] ++ xx_d, t_s ++ ts) else (xx, xx_d, ts) in
  let '(xx, xx_d, ts) :=
    if mem scheme (gauss_like ++ gauss_inv ++ radau_like)
    then (xx ++ [x_f], xx_d ++ [x_d_f], ts ++ t_f) else (xx, xx_d, ts) in
  let k :=
    match h_mode r with
    | Ph_td => TopDown (nth ii_seg (h_q_constr r) [])
    | Ph_bu => BottomUp
    | Ph_ps =>
        let indices : slice_idx :=
          if mem scheme gauss_like then (0, 1)%nat
          else if mem scheme gauss_inv then (1, 0)%nat else (0, 0)%nat in
        let n_q := h_n_q r in
        let qq := mcols 0 n_q xx in
        let vv := if (n_q =? mwidth xx)%nat then xx_d else mcols n_q (n_q * 2) xx in
        Pseudo (take indices qq) (take indices vv) (take indices xx)
    end in
  {| r_scheme := scheme; r_solve_order := h_solve_order r;
     r_x := xx; r_x_d := xx_d; r_u := uu; r_t := ts; r_kind := k |}.
(** analysis.py:299-364 [_generate_sub_problems] *)
Definition generate_sub_problems (r : ph_result) : list result :=
  map (sub_problem r) (seq 0 (h_n_segments r)).

(** numpy.searchsorted(t_arr, knot) for increasing t_arr *)
Definition searchsorted (t_arr : vec) (knot : R) : nat :=
  length (filter (fun t => if Rlt_dec t knot then true else false) t_arr).
(** analysis.py:604-616: number of samples of each segment, for increasing
    knots. *)
Fixpoint in_len_from (n_interp prev : nat) (jj : list nat) : list nat :=
  match jj with
  | [] => [n_interp - prev]%nat
  | j :: jj' => (j - prev + 1)%nat :: in_len_from n_interp j jj'
  end.
Definition in_len (n_interp : nat) (t_arr knots : vec) : list nat :=
  match map (searchsorted t_arr) knots with
  | [] => [n_interp]
  | j :: jj' => (j + 1)%nat :: in_len_from n_interp j jj'
  end.

(** opti.py:476-520 [_save_results] with opti.py:2476-2552, 2620: the entries
    above for a solved problem with variables [w]. *)
Definition saved (real_roots : list R -> list R) (p : ph_problem) (knots : vec) (ns : list nat) (w : ph_values)
  : Res ph_result :=
  do t <- ph_t_arr real_roots p knots ns;
  do cols <- ph_t_col real_roots p knots ns;
  Ok {| h_mode := ph_kind p; h_scheme := ph_scheme p; h_solve_order := ph_order p; h_n_q := ph_n_q p;
        h_n_segments := length ns; h_x := hv_x w; h_t := t; h_t_knot := knots; h_t_knot_ext := ph_t_knot_ext p knots;
        h_x_col := ph_col ns (hv_x w); h_x_d_col := ph_col ns (hv_x_d w); h_u_col := ph_col ns (hv_u w);
        h_t_col := cols; h_x_knot_ext := ph_knot_ext ns (hv_x w); h_x_d_knot_ext := ph_knot_ext ns (hv_x_d w);
        h_q_constr := hv_q_constr w |}.

Section Analysis.
Variable real_roots : list R -> list R.
Variable leggauss : nat -> vec * vec.
(** Parameters of PwInterpModel: the "min_err" and "pinv_dyn" controls (not
    used here) and scipy's spline. *)
Variable u_other : string -> R -> Res vec.
Variable hermite : list R -> list vec -> list vec -> R -> vec.

(** analysis.py:664-673: the arrays of q and its derivatives. *)
Definition distribute (problem_order : nat) (d : row) : Res row :=
  do d <- fold_left (fun acc ii =>
      do d <- acc;
      do _arr <- get (KX ii) d;
      let divs := get_x_divisions _arr problem_order in
      Ok (fold_left (fun d jj => put (KQ jj ii) (nth jj divs []) d)
            (seq 0 (problem_order - Nat.max 1 ii + 1)) d))
    (seq 0 (problem_order + 1)) (Ok d);
  do a <- get (KQ (problem_order - 1) 1) d;
  Ok (put (KQ problem_order 0) a d).

(** The base of each row: x and its derivatives, u and t; then q and its
    derivatives. *)
Definition make_row (problem_order : nat) (xs : list vec) (u : vec) (t : R) : Res row :=
  let d := [(KU, u); (KT, [t])] ++ combine (map KX (seq 0 (length xs))) xs in
  distribute problem_order d.

Definition or_pol (o : option string) : string := match o with Some s => s | None => "pol"%string end.

(** analysis.py:449-512: one row, pseudospectral mode. *)
Definition row_pseudo (scheme : string) (interp_order problem_order : nat) (qq vv xx uu : mat)
  (t0 tf : R) (u_interp x_interp : string) (t : R) : Res row :=
  do (q, qd, v, vd, qdd, u) <-
    interpolations_pseudospectral real_roots qq vv uu scheme t0 tf u_interp x_interp t;
  do (x, x_d) <- (if (interp_order =? 2)%nat then Ok (q ++ v, qd ++ vd)
                  else if (interp_order =? 1)%nat then Ok (q, v)
                  else Err NotImplementedError);
  do ders <- mapm (fun ii => interpolations_deriv_pseudospectral real_roots xx scheme ii t0 tf x_interp t)
               (seq 2 (problem_order - 1));
  make_row problem_order (x :: x_d :: ders) u t.
(** analysis.py:514-549: bottom-up mode. *)
Definition row_bu (scheme : string) (interp_order problem_order scheme_order : nat) (xx xx_d uu : mat)
  (t0 tf : R) (u_interp x_interp : string) (t : R) : Res row :=
  do (x, x_d, u) <- interpolations_BU_pseudospectral real_roots leggauss xx xx_d uu scheme interp_order
                      t0 tf scheme_order u_interp x_interp t;
  do ders <- mapm (fun ii => interpolations_deriv_BU_pseudospectral real_roots leggauss xx xx_d scheme
                      interp_order ii t0 tf scheme_order x_interp t) (seq 2 (problem_order - 1));
  make_row problem_order (x :: x_d :: ders) u t.
(** analysis.py:551-590: top-down mode. *)
Definition row_td (scheme : string) (problem_order scheme_order : nat) (q_constr xx xx_d uu : mat)
  (t0 tf : R) (u_interp x_interp : string) (t : R) : Res row :=
  let n_coll := length uu in
  do (x, x_d, u) <- interpolations_TD_pseudospectral real_roots q_constr xx xx_d uu scheme
                      t0 tf scheme_order u_interp x_interp t;
  do ders <- mapm (fun ii => interpolations_deriv_TD_pseudospectral real_roots q_constr xx xx_d scheme ii
                      t0 tf n_coll scheme_order x_interp t) (seq 2 (problem_order - 1));
  make_row problem_order (x :: x_d :: ders) u t.

(** analysis.py:399-447: equispaced mode.  The parameters p are not used
    because F is None. *)
Definition default_u_interp (scheme : string) : string :=
  if contains "parab" scheme then (if contains "j" scheme then "parab_j" else "parab") else "lin".
Definition rows_equi (scheme : string) (interp_order problem_order : nat) (xx xx_d uu x_c x_d_c u_c : mat)
  (t0 tf : R) (n_t : nat) (u_interp : option string) (ts : vec) : Res (list row) :=
  let h := (tf - t0) / (INR n_t - 1) in
  let u_scheme := match u_interp with Some s => s | None => default_u_interp scheme end in
  let sp := if contains "hs" scheme then Build_sparams None (Some x_d_c) (Some x_c) (Some u_c) else no_params in
  let sp := if contains "n" scheme
            then Build_sparams (Some interp_order) (sp_x_dot_c sp) (sp_x_c sp) (sp_u_c sp) else sp in
  do (x_arr, u_arr, sp) <- interpolated_array u_other hermite xx uu h ts tt None (Some xx_d)
                             scheme u_scheme (Some sp);
  do ders <- mapm (fun ii =>
      do (a, _) <- interpolated_array_derivative xx uu h ts tt None (Some xx_d) scheme ii (Some sp); Ok a)
    (seq 1 problem_order);
  mapm (fun k => make_row problem_order (nth k x_arr [] :: map (fun a => nth k a []) ders)
                   (nth k u_arr []) (vnth ts k))
    (seq 0 (length ts)).

(** pseudospectral.py:838-846 [new_poly] with numpy.py:43-48
    [combinefunctions] and piecewise.py:52-56 [force2d]: polynomials have one
    row for each time only if there are two times or more.  With one time they
    return arrays of another shape, which cannot be joined to those of other
    segments, and with none they raise TypeError; the model gives ValueError
    instead.  Simplification: so it does when that shape happens to be right
    (one coordinate, and controls that are not polynomials). *)
Definition enough_times (x_interp u_interp : string) (t_arr : vec) : bool :=
  negb ((x_interp =? "pol")%string || (u_interp =? "pol")%string) || (2 <=? length t_arr)%nat.
Definition rows_at (x_interp u_interp : string) (f : R -> Res row) (t_arr : vec) : Res (list row) :=
  if enough_times x_interp u_interp t_arr then mapm f t_arr else Err ValueError.
(** analysis.py:367-678 [interpolation] for results of one segment: the
    dictionary. *)
Definition interpolation1 (r : result) (problem_order scheme_order : nat) (x_interp u_interp : option string)
  (n_interp : nat) (given_t_array : option vec) : Res (list row) :=
  do t0 <- pyget (r_t r) 0%Z;
  do tf <- pyget (r_t r) (-1)%Z;
  if (problem_order =? 0)%nat then Err ZeroDivisionError
  else if negb (mwidth (r_x r) mod problem_order =? 0)%nat then Err AssertionError
  else
    let t_arr := match given_t_array with None => linspace t0 tf n_interp | Some a => a end in
    match r_kind r with
    | Equispaced x_c x_d_c u_c =>
        rows_equi (r_scheme r) (r_solve_order r) problem_order (r_x r) (r_x_d r) (r_u r) x_c x_d_c u_c
          t0 tf (length (r_t r)) u_interp t_arr
    | Pseudo qq vv xx =>
        rows_at (or_pol x_interp) (or_pol u_interp)
          (row_pseudo (r_scheme r) (r_solve_order r) problem_order qq vv xx (r_u r) t0 tf
                (or_pol u_interp) (or_pol x_interp)) t_arr
    | BottomUp =>
        rows_at (or_pol x_interp) (or_pol u_interp)
          (row_bu (r_scheme r) (r_solve_order r) problem_order scheme_order (r_x r) (r_x_d r) (r_u r) t0 tf
                (or_pol u_interp) (or_pol x_interp)) t_arr
    | TopDown qc =>
        rows_at (or_pol x_interp) (or_pol u_interp)
          (row_td (r_scheme r) problem_order scheme_order qc (r_x r) (r_x_d r) (r_u r) t0 tf
                (or_pol u_interp) (or_pol x_interp)) t_arr
    end.

(** analysis.py:592-642: the same for several segments: the arrays, and the
    lists with the arrays of each segment. *)
Definition interpolation_ph (r : ph_result) (problem_order scheme_order : nat) (x_interp u_interp : option string)
  (n_interp : nat) (given_t_array : option (list vec)) : Res (list row * list (list row)) :=
  do t0 <- pyget (h_t r) 0%Z;
  do tf <- pyget (h_t r) (-1)%Z;
  if (problem_order =? 0)%nat then Err ZeroDivisionError
  else if negb (mwidth (h_x r) mod problem_order =? 0)%nat then Err AssertionError
  else
    let problem_list := generate_sub_problems r in
    let n_seg := h_n_segments r in
    let n_interp := match given_t_array with None => n_interp | Some g => length (concat g) end in
    let conc_end : list row -> list row :=
      match given_t_array with None => butlastn 1 | Some _ => fun l => l end in
    let t_arr := linspace t0 tf n_interp in
    let lens := in_len n_interp t_arr (h_t_knot r) in
    do interps <- mapm (fun ii =>
        do g <- match given_t_array with
                | None => Ok None
                | Some g => do a <- pyget g (Z.of_nat ii); Ok (Some a)
                end;
        interpolation1 (nth ii problem_list (sub_problem r ii)) problem_order scheme_order x_interp u_interp
          (nth ii lens 0%nat) g)
      (seq 0 n_seg);
    Ok (concat (map (fun ii => conc_end (nth ii interps [])) (seq 0 (n_seg - 1))) ++ nth (n_seg - 1) interps [],
        interps).

(** ** Errors (analysis.py:681-754) *)
Record error_row := { e_dyn : vec; e_compat : list vec }.
(** [dynamic_errors_from_interp], one sample: the entries of the dictionary
    afterwards, and the errors. *)
Definition errors_from_row (F : vec -> vec -> vec) (mode : string) (problem_order : nat) (d : row)
  : Res (row * error_row) :=
  do qs <- mapm (fun ii => get (KQ 0 ii) d) (seq 0 problem_order);
  do x <- get (KX 0) d;
  do x_in_f <- (if (mode =? "q")%string then Ok (concat qs)
                else if (mode =? "x")%string then Ok x else Err ValueError);
  do u <- get KU d;
  let n_q := (length x / problem_order)%nat in
  if negb (length x mod problem_order =? 0)%nat then Err AssertionError
  else
    let f := lastn n_q (F x_in_f u) in
    let d := put KF f d in
    do q_highest <- get (KQ 0 problem_order) d;
    do compat <- mapm (fun jj => do a <- get (KQ 0 (jj + 1)) d; do b <- get (KQ (jj + 1) 0) d; Ok (a -v b))
                   (seq 0 (problem_order - 1));
    Ok (d, {| e_dyn := q_highest -v f; e_compat := compat |}).
Definition dynamic_errors_from_interp (interps : list row) (F : vec -> vec -> vec) (mode : string)
  (problem_order : nat) : Res (list row * list error_row) :=
  do l <- mapm (errors_from_row F mode problem_order) interps;
  Ok (map fst l, map snd l).

(** What the analysis functions write in the caller's result dictionary. *)
Record written := { w_interpolations : option (list row); w_error : option (list error_row) }.
(** [dynamic_errors] given the outcome of [interpolation], which is called
    without save_in_res; the dictionary it saves is the one modified
    afterwards. *)
Definition dynamic_errors (interps : Res (list row)) (F : vec -> vec -> vec) (mode : string)
  (problem_order : nat) (save_in_res : bool) (res : written) : Res (list error_row * written) :=
  do rows <- interps;
  do (rows, errors) <- dynamic_errors_from_interp rows F mode problem_order;
  Ok (errors, {| w_interpolations := Some rows;
                 w_error := if save_in_res then Some errors else w_error res |}).

(** ** dynamic_error (analysis.py:79-256) *)
Context {P : Type}.
(** Result: for each sample the list whose item jj is the list of errors of
    order jj + 1, and the caller's scheme_params afterwards. *)
Definition dynamic_error (x_arr u_arr : mat) (t_end : R) (params : P) (F : vec -> vec -> P -> vec)
  (X_dot : option mat) (scheme u_scheme : string) (scheme_params : option sparams) (n_interp order : nat)
  (mode : string) : Res (list (list (list vec)) * sparams) :=
  let sp := match scheme_params with None => no_params | Some d => d end in
  let N := INR (length x_arr) - 1 in
  let dim := (mwidth x_arr / order)%nat in
  let h := t_end / N in
  let t_interp := linspace 0 t_end n_interp in
  let sp := Build_sparams (Some order) (sp_x_dot_c sp) (sp_x_c sp) (sp_u_c sp) in
  do (x_interp, u_interp, sp) <- interpolated_array u_other hermite x_arr u_arr h t_interp params (Some F) X_dot
                                   scheme u_scheme (Some sp);
  do ders <- mapm (fun jj =>
      do (a, _) <- interpolated_array_derivative x_arr u_arr h t_interp params (Some F) X_dot scheme jj (Some sp);
      Ok a) (seq 1 order);
  do errs <- mapm (fun k =>
      let x := nth k x_interp [] in
      let u := nth k u_interp [] in
      let x_and_derivs := get_x_divisions x order :: map (fun a => get_x_divisions (nth k a []) order) ders in
      let q_and_d := flat_map (fun jj => nth 0 (nth jj x_and_derivs []) []) (seq 0 order) ++ skipn (dim * order) x in
      do x_in_f <- (if (mode =? "q")%string then Ok q_and_d
                    else if (mode =? "x")%string then Ok x else Err ValueError);
      let f := lastn dim (F x_in_f u params) in
      let x0 := get_x_divisions x order ++ [f] in
      Ok (map (fun jj => map (fun ii =>
            nth ii (nth (jj + 1) x_and_derivs []) [] -v nth (ii + jj + 1) x0 [])
            (seq 0 (order - jj))) (seq 0 order)))
    (seq 0 n_interp);
  Ok (errs, sp).
End Analysis.

(** ** generate_G (analysis.py:259-296) *)
(** [solve] is numpy.linalg.solve.  For one state (1-D x); reshape needs as
    many elements as the new shape. *)
Definition generate_G {P} (solve : mat -> vec -> vec) (M : vec -> P -> mat) (F_impl : vec -> vec -> P -> vec)
  (order : nat) (x u : vec) (params : P) : Res vec :=
  let dim := (length x / order)%nat in
  let mm := M x params in
  let ff := F_impl x u params in
  let res := solve mm ff in
  if (length res =? dim)%nat then Ok (firstn dim res) else Err ValueError.

(** ** Array functions (analysis.py:968-989) *)
Definition arr_mod (x : mat) : vec := map (fun r => sqrt (vsum (vmul r r))) x.
Definition arr_sum (x : mat) : vec := map (fun r => vsum (map Rabs r)) x.
(** numpy.max of an empty row is a ValueError. *)
Definition arr_max (x : mat) : Res vec :=
  mapm (fun r => match r with [] => Err ValueError | _ => Ok (npmax (map Rabs r)) end) x.
(** numpy.trapz(y, t) *)
Fixpoint np_trapz (y t : vec) : R :=
  match y, t with
  | y0 :: y', t0 :: t' =>
      match y', t' with
      | y1 :: _, t1 :: _ => (t1 - t0) * (y0 + y1) / 2 + np_trapz y' t'
      | _, _ => 0
      end
  | _, _ => 0
  end.
(** total_state_error and arr_abs_integr_vert: trapz(abs(x), t, axis=0), for an
    array of [c] columns with as many rows as times. *)
Definition total_state_error (t_arr : vec) (x : mat) : vec :=
  map (fun j => np_trapz (map Rabs (mcol j x)) t_arr) (seq 0 (mwidth x)).
