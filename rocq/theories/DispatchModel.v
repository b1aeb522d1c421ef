(** Model of the factory function of chords/opti.py, of the constructor of
    its problem objects and of the names of the result arrays. *)
From Coq Require Import String Ascii DecimalString.
From Verif Require Import Prelude PwInterpModel PsModel.
Open Scope string_scope.
Open Scope list_scope.

(** opti.py:88-102 [_implemented_equispaced_schemes] *)
Definition implemented_equispaced : list string :=
  ["euler"; "trapz"; "trapz_mod"; "trapz_n"; "hs"; "hs_mod"; "hs_parab"; "hs_mod_parab"; "hsj";
   "hsj_parab"; "hsj_parab_mod"; "hsn"; "hsn_parab"].
(** bu_pseudospectral.py:58-64 [_implemented_schemes]; _other_schemes is empty
    there. *)
Definition bu_implemented : list string := gauss_like ++ radau_like ++ radau_inv ++ lobato_like.
(** opti.py:105-111 *)
Definition implemented_top_down : list string := map (fun s => String.append "TD_" s) bu_implemented.
Definition implemented_bottom_up : list string := map (fun s => String.append "BU_" s) bu_implemented.

(** The object given as LM, by what the factory asks about it: instance of
    ImplicitLagrangesMethod, of SimpLagrangesMethod or sympy's
    LagrangesMethod, callable, or none of these. *)
Inductive lm_kind := LM_implicit | LM_explicit | LM_callable | LM_other.

(** The classes put together by the factory. *)
Inductive dyn_class := Implicit_Dynamics | Explicit_Dynamics | Function_Dynamics.
Inductive sch_class :=
  Equispaced | Pseudospectral | BU_Pseudospectral | TD_Pseudospectral | multi_pseudospectral.
Inductive ini_class := Zero_init | Lin_init | Waypoints_init | Custom_init.

(** s[:3] and s[3:] *)
Definition head3 (s : string) : string := String.substring 0 3 s.
Definition tail3 (s : string) : string := String.substring 3 (String.length s - 3) s.

(** opti.py:413-459 [_Opti_Problem.__init__]: the attributes scheme_mode and
    scheme (the other ones are the arguments). *)
Definition problem_init (scheme : string) : Res (string * string) :=
  let '(ph_scheme, scheme) :=
    if head3 scheme =? "ph_" then (true, tail3 scheme) else (false, scheme) in
  do (mode, scheme) <-
    (if mem scheme implemented_equispaced then Ok ("equispaced", scheme)
     else if mem scheme implemented_schemes then Ok ("pseudospectral", scheme)
     else if mem scheme implemented_bottom_up then Ok ("bottom-up pseudospectral", tail3 scheme)
     else if mem scheme implemented_top_down then Ok ("top-down pseudospectral", tail3 scheme)
     else Err NotImplementedError);
  Ok (if ph_scheme then String.append "ph " mode else mode, scheme).

(** opti.py:4051-4217 [Opti_Problem].  For an LM that is not a Lagrangian
    object nor callable a ValueError is built but not raised (4163), so the
    problem has no dynamics class. *)
Record opti_problem := {
  op_dyn : option dyn_class; op_sch : sch_class; op_ini : ini_class;
  op_scheme_mode : string; op_scheme : string }.
Definition Opti_Problem (LM : lm_kind) (scheme ini_guess : string) : Res opti_problem :=
  let dyn := match LM with
             | LM_implicit => Some Implicit_Dynamics
             | LM_explicit => Some Explicit_Dynamics
             | LM_callable => Some Function_Dynamics
             | LM_other => None
             end in
  do sch <-
    (if mem scheme implemented_equispaced then Ok Equispaced
     else if mem scheme implemented_schemes then Ok Pseudospectral
     else if mem scheme implemented_bottom_up then Ok BU_Pseudospectral
     else if mem scheme implemented_top_down then Ok TD_Pseudospectral
     else if head3 scheme =? "ph_" then Ok multi_pseudospectral
     else Err NotImplementedError);
  do ini <-
    (if ini_guess =? "zero" then Ok Zero_init
     else if ini_guess =? "lin" then Ok Lin_init
     else if ini_guess =? "waypoints" then Ok Waypoints_init
     else if ini_guess =? "custom" then Ok Custom_init
     else Err NotImplementedError);
  do (mode, scheme) <- problem_init scheme;
  Ok (Build_opti_problem dyn sch ini mode scheme).

(** str(n) *)
Definition py_str (n : nat) : string := NilEmpty.string_of_uint (Nat.to_uint n).
(** opti.py:125-130 [get_q_and_ders_names]; range(7, order + 1) *)
Definition get_q_and_ders_names (order : nat) : list string :=
  firstn (order + 1)
    (["q"; "v"; "a"; "jerk"; "snap"; "crackle"; "pop"] ++
     map (fun ii => String.append "d" (String.append (py_str ii) "q")) (seq 7 (order + 1 - 7))).
