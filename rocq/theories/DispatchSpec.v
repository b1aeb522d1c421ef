(** What the names accepted by the factory function mean, written without
    reference to the model (only its names for the classes). *)
From Coq Require Import String.
From Verif Require Import Prelude DispatchModel.
Open Scope string_scope.
Open Scope list_scope.

Inductive family := FEquispaced | FPseudospectral | FBottomUp | FTopDown.

(** Names after removing the prefixes. *)
Definition plain_names (f : family) : list string :=
  match f with
  | FEquispaced =>
      ["euler"; "trapz"; "trapz_mod"; "trapz_n"; "hs"; "hs_mod"; "hs_parab"; "hs_mod_parab"; "hsj";
       "hsj_parab"; "hsj_parab_mod"; "hsn"; "hsn_parab"]
  | FPseudospectral =>
      ["LG"; "JG"; "CG"; "LG_inv"; "JG_inv"; "CG_inv"; "LG2"; "JG2"; "CG2"; "LGLm"; "LGR"; "JGR"; "CGR";
       "LGR_inv"; "JGR_inv"; "CGR_inv"; "LGL"; "JGL"; "CGL"; "D2"]
  | FBottomUp | FTopDown =>
      ["LG"; "JG"; "CG"; "LGR"; "JGR"; "CGR"; "LGR_inv"; "JGR_inv"; "CGR_inv"; "LGL"; "JGL"; "CGL"]
  end.
Definition family_prefix (f : family) : string :=
  match f with FBottomUp => "BU_" | FTopDown => "TD_" | _ => "" end.
Definition family_mode (f : family) : string :=
  match f with
  | FEquispaced => "equispaced" | FPseudospectral => "pseudospectral"
  | FBottomUp => "bottom-up pseudospectral" | FTopDown => "top-down pseudospectral"
  end.

(** [names ph f base s]: s is the full name of the scheme [base] of family
    [f], in several segments if [ph]. *)
Definition names (ph : bool) (f : family) (base s : string) : Prop :=
  In base (plain_names f) /\
  s = String.append (if ph then "ph_" else "") (String.append (family_prefix f) base).

Definition guess_names : list string := ["zero"; "lin"; "waypoints"; "custom"].

(** The names in the documentation of the factory (opti.py:4080-4120). *)
Definition documented_names : list string :=
  ["trapz"; "trapz_mod"; "hs"; "hs_mod"; "hs_parab"; "hs_mod_parab"; "hsn"; "hsn_parab";
   "LG"; "LG_inv"; "LGR"; "LGR_inv"; "LGL"; "LGLm"; "LG2"; "D2"; "JG";
   "BU_LG"; "BU_LG_inv"; "BU_LGR"; "BU_LGR_inv"; "BU_LGL"; "BU_JG"; "BU_JGR"; "BU_JGR_inv"; "BU_JGL"].

(** The class that serves a family, and the name of its mode. *)
Definition class_of (ph : bool) (f : family) : sch_class :=
  if ph then multi_pseudospectral else
  match f with
  | FEquispaced => Equispaced | FPseudospectral => Pseudospectral
  | FBottomUp => BU_Pseudospectral | FTopDown => TD_Pseudospectral
  end.
Definition mode_of (ph : bool) (f : family) : string :=
  String.append (if ph then "ph " else "") (family_mode f).

(** The class that serves a kind of dynamics. *)
Definition dyn_of (LM : lm_kind) : option dyn_class :=
  match LM with
  | LM_implicit => Some Implicit_Dynamics | LM_explicit => Some Explicit_Dynamics
  | LM_callable => Some Function_Dynamics | LM_other => None
  end.

