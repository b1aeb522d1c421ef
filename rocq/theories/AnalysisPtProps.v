(** Properties C87 and C88: errors of implicit dynamics and integrated errors.
    Only statements. *)
From Coq Require Import Reals List String.
From Coquelicot Require Import Coquelicot.
From Verif Require Import Prelude Mat PwModel PwSpec PwInterpModel PwInterpSpec PwInterpProofs AnalysisModel AnalysisSpec AnalysisPtModel AnalysisPtSpec AnalysisPtProofs AnalysisPtLive AnalysisPtExamples.
Import ListNotations.
Open Scope R_scope.
Open Scope vec_scope.
Open Scope list_scope.

(** ** C87: dynamic_error_implicit *)

(** For a system of order 2 without multipliers, the errors of a solution of a piecewise scheme are those of the trajectory Y that the solution describes, with its value x and its derivatives ys, against the accelerations that solve M a = F (as C53_piecewise). *)
Theorem C87_errors :
  forall u_other hermite P solve (M : vec -> P -> mat) (F_impl : vec -> vec -> P -> vec) (p : P) scheme u_scheme (B m n : nat) (t_end : R) (X U : list vec) (sp0 : option sparams) n_interp mode errs sp',
  let sp := Build_sparams (Some 2%nat) None None (match sp0 with Some d => sp_u_c d | None => None end) in
  let h := t_end / (INR (length X) - 1) in
  let G := solved_dynamics solve M F_impl in
  (forall d, sp0 = Some d -> sp_x_dot_c d = None /\ sp_x_c d = None) ->
  scheme_blocks scheme (Some 2%nat) = Some B -> (0 < n)%nat -> (B * m = 2 * n)%nat -> 0 < t_end ->
  (forall x u, length x = (2 * n)%nat -> length (solve (M x p) (F_impl x u p)) = n) ->
  (2 <= length X)%nat -> (forall x, In x X -> length x = (2 * n)%nat) -> (forall d, (d <= 2)%nat -> dmax_of scheme d) ->
  steps_hold G p scheme B m h X (full_controls X U) sp ->
  dynamic_error_implicit u_other hermite solve X U t_end p F_impl M None scheme u_scheme sp0 n_interp 2 mode = Ok (errs, sp') ->
  exists (Y : R -> vec) (Z : nat -> R -> vec) nX nU sp1,
    on_samples X h Y /\ pieces G p scheme B m h X (full_controls X U) sp Y Z /\
    interpolated_array u_other hermite X U h (linspace 0 t_end n_interp) p (Some G) None scheme u_scheme (Some sp) = Ok (nX, nU, sp1) /\
    length errs = n_interp /\
    forall k, (k < n_interp)%nat -> exists x ys,
      let t := vnth (linspace 0 t_end n_interp) k in let u := nth k nU [] in
      is_value_of X h Y t x /\ length ys = 2%nat /\
      (forall d, (d < 2)%nat -> is_derivative_of (2 * n) X h Z (d + 1) t (nth d ys [])) /\
      (mode = "q" \/ mode = "x")%string /\
      errors_are n 2 x ys
        (lastn n (G (if (mode =? "q")%string then blk n 0 x ++ blk n 0 (nth 0 ys []) else x) u p))
        (nth k errs []).
Proof. exact (@implicit_errors_are). Qed.
Print Assumptions C87_errors.

(** Whatever it returns is what dynamic_error returns for the explicit dynamics. *)
Theorem C87_same :
  forall u_other hermite P solve (M : vec -> P -> mat) (F_impl : vec -> vec -> P -> vec) (p : P) X U t_end Xd scheme us sp n mode r,
  dynamic_error_implicit u_other hermite solve X U t_end p F_impl M Xd scheme us sp n 2 mode = Ok r ->
  dynamic_error u_other hermite X U t_end p (solved_dynamics solve M F_impl) Xd scheme us sp n 2 mode = Ok r.
Proof. exact (@implicit_errors). Qed.
Print Assumptions C87_same.

(** It does return, for every scheme of order 1 or 2 (except hs_scipy) with linear controls and any samples. *)
Theorem C87_returns :
  forall u_other hermite solve P (M : vec -> P -> mat) (F_impl : vec -> vec -> P -> vec) (p : P) n,
  (forall x u, length x = (2 * n)%nat -> length (solve (M x p) (F_impl x u p)) = n) ->
  forall scheme, In scheme ["trapz"; "trapz_mod"; "trapz_n"; "hs"; "hs_parab"; "hs_mod"; "hs_mod_parab"; "hsj"; "hsj_parab"]%string -> forall X U t_end n_interp mode,
  (0 < n)%nat -> 0 < t_end -> (2 <= length X)%nat -> (forall x, In x X -> length x = (2 * n)%nat) ->
  (length U = length X \/ length X = (length U + 1)%nat) -> (1 <= n_interp)%nat -> In mode ["q"; "x"]%string ->
  exists r, dynamic_error_implicit u_other hermite solve X U t_end p F_impl M None scheme "lin" None n_interp 2 mode = Ok r.
Proof. exact (@implicit_live). Qed.
Print Assumptions C87_returns.

(** A mass 2 with a force 4. *)
Example C87_example :
  forall u_other hermite n, (1 <= n)%nat -> exists r,
  dynamic_error_implicit u_other hermite divide [[0; 0]; [1; 2]] [[4]; [4]] 1 tt mass_F mass_M None "trapz" "lin" None n 2 "q" = Ok r.
Proof. exact (mass_error). Qed.

(** A system with multipliers is refused, although generate_G is meant to drop them. *)
Theorem C87_multipliers_refuted :
  forall u_other hermite P solve (M : vec -> P -> mat) (F_impl : vec -> vec -> P -> vec) (p : P) X x0 U t_end scheme us sp n order mode,
  (forall u, (length x0 / 2 < length (solve (M x0 p) (F_impl x0 u p)))%nat) ->
  exists e, dynamic_error_implicit u_other hermite solve (x0 :: X) U t_end p F_impl M None scheme us sp n order mode = Err e.
Proof. exact (@multipliers_refused). Qed.
Print Assumptions C87_multipliers_refuted.

(** A system of an order other than 2 is refused, although there is an argument for the order. *)
Theorem C87_order_refuted :
  forall u_other hermite P solve (M : vec -> P -> mat) (F_impl : vec -> vec -> P -> vec) (p : P) X x0 U t_end scheme us sp n order mode dim,
  order <> 2%nat -> (0 < order)%nat -> (0 < dim)%nat -> length x0 = (order * dim)%nat ->
  (forall u, length (solve (M x0 p) (F_impl x0 u p)) = dim) ->
  exists e, dynamic_error_implicit u_other hermite solve (x0 :: X) U t_end p F_impl M None scheme us sp n order mode = Err e.
Proof. exact (@orders_refused). Qed.
Print Assumptions C87_order_refuted.

(** ** C88: F_point, quad_problem and doub_quad_problem *)

(** F_point with the Hermite interpolation: the accelerations at the interpolated q, its derivative and the interpolated controls. *)
Theorem C88_point :
  forall P hermite hermite_der (F : vec -> vec -> P -> vec) (p : P) X U ts t Xd sp, (2 <= length X)%nat -> length U = length X -> vnth ts 0 < last ts 0 ->
  0 <= t <= last ts 0 - vnth ts 0 ->
  let D := match Xd with Some d => d | None => map2 (fun x u => F x u p) X U end in
  let dim := (mwidth X / 2)%nat in
  exists u, control_at U ((last ts 0 - vnth ts 0) / (INR (length X) - 1)) t u /\
    F_point hermite hermite_der X U ts t p F Xd "hs_scipy" "lin" sp =
      Ok (skipn dim (F (firstn dim (hermite ts X D t) ++ firstn dim (hermite_der ts X D t)) u p)).
Proof. exact (@point_value). Qed.
Print Assumptions C88_point.

(** doub_quad_problem from time 0, with a quadrature without error: the double integral of the accelerations a of the interpolation less those g of the dynamics. *)
Theorem C88_double_integral :
  forall P hermite hermite_der quad (F : vec -> vec -> P -> vec) (p : P) X U ts sp b dim (a g : nat -> R -> R),
  quad_exact quad -> second_order dim F p -> (2 <= length X)%nat -> length U = length X -> length ts = length X ->
  vnth ts 0 = 0 -> 0 < last ts 0 -> (forall x, In x X -> length x = (2 * dim)%nat) ->
  let T := last ts 0 in let h := T / (INR (length X) - 1) in
  let Xd := map2 (fun x u => F x u p) X U in
  let q := hermite ts X Xd in let qd := hermite_der ts X Xd in
  interpolates ts X Xd q qd ->
  (forall ii, (ii < dim)%nat -> forall t, is_RInt (a ii) 0 t (vnth (qd t) ii - vnth (qd 0) ii)) ->
  (forall ii, (ii < dim)%nat -> forall t, ex_RInt (g ii) 0 t) ->
  (forall ii t u, (ii < dim)%nat -> 0 <= t <= T -> control_at U h t u ->
    vnth (F (firstn dim (q t) ++ firstn dim (qd t)) u p) (dim + ii) = g ii t) ->
  exists E, doub_quad_problem hermite hermite_der quad X U ts p F "hs_scipy" "lin" sp b = Ok E /\ length E = dim /\
    forall ii, (ii < dim)%nat -> vnth E ii = RInt (fun t => RInt (fun s => a ii s - g ii s) 0 t) 0 T.
Proof. exact (@double_integral). Qed.
Print Assumptions C88_double_integral.

(** discont_at_t_arr: the inner times are the break points of the quadratures. *)
Theorem C88_breaks :
  forall t0 ts tN, break_points true (t0 :: ts ++ [tN]) = ts /\ forall l, break_points false l = [].
Proof. exact (breaks). Qed.
Print Assumptions C88_breaks.

(** q = t^2 without any force ends 1 away from the dynamics. *)
Example C88_example :
  forall b, exists E, doub_quad_problem parab_q parab_qd exact_quad [[0; 0]; [1; 2]] [[0]; [0]] [0; 1] tt free_F "hs_scipy" "lin" None b = Ok E /\ E = [1].
Proof. exact (free_error). Qed.

Example C88_quadrature :
  quad_exact exact_quad /\ quad_raises exact_quad.
Proof. exact (conj exact_quad_exact exact_quad_raises). Qed.

(** Times that do not start at 0: an exact motion, q = t + 1/2 without force, has error 1/2. *)
Theorem C88_start_refuted :
  forall b, second_order 1 still_F tt /\
  (forall ts X Xd, interpolates [- / 2; / 2] [[0; 1]; [1; 1]] [[1; 0]; [1; 0]] (line_q ts X Xd) (line_qd ts X Xd)) /\
  (forall t u, vnth (still_F (firstn 1 (line_q [] [] [] t) ++ firstn 1 (line_qd [] [] [] t)) u tt) 1 = 0) /\
  doub_quad_problem line_q line_qd exact_quad [[0; 1]; [1; 1]] [[0]; [0]] [- / 2; / 2] tt still_F "hs_scipy" "lin" None b = Ok [/ 2].
Proof. exact (fun b => conj still_form (conj (line_interpolates) (conj (fun _ _ => eq_refl) (late_error b)))). Qed.
Print Assumptions C88_start_refuted.

(** With any other scheme F_point raises an exception, *)
Theorem C88_point_refuted :
  forall P hermite hermite_der (F : vec -> vec -> P -> vec) (p : P) X U ts t Xd scheme us sp, scheme <> "hs_scipy"%string ->
  exists e, F_point hermite hermite_der X U ts t p F Xd scheme us sp = Err e.
Proof. exact (@point_refused). Qed.
Print Assumptions C88_point_refuted.

(** so does doub_quad_problem, *)
Theorem C88_double_refuted :
  forall P hermite hermite_der quad (F : vec -> vec -> P -> vec) (p : P) X U ts scheme us sp b, quad_raises quad -> (2 <= mwidth X)%nat -> scheme <> "hs_scipy"%string ->
  exists e, doub_quad_problem hermite hermite_der quad X U ts p F scheme us sp b = Err e.
Proof. exact (@doub_quad_refused). Qed.
Print Assumptions C88_double_refuted.

(** and quad_problem with any scheme. *)
Theorem C88_quad_refuted :
  forall P hermite hermite_der quad (F : vec -> vec -> P -> vec) (p : P) X U ts scheme us sp Xd b, quad_raises quad -> (2 <= mwidth X)%nat ->
  exists e, quad_problem hermite hermite_der quad X U ts p F scheme us sp Xd b = Err e.
Proof. exact (@quad_refused). Qed.
Print Assumptions C88_quad_refuted.
