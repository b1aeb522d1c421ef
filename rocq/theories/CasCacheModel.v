(** Model of the functions that dynamic_setup keeps in the object LM
    (chords/opti.py:3549-3656). *)
From Coq Require Import String.
From Verif Require Import Prelude SymModel CasModel.
Open Scope list_scope.

Section Cache.
Variable dyn_order : expr -> list atom.
Variable sym_order : expr -> list string.
(** An object LM: Problem (opti.py:4156-4163) takes implicit dynamics for an
    ImplicitLagrangesMethod and explicit dynamics for the others. *)
Inductive lm_dynamics := Lm_explicit (RHS : list expr) | Lm_implicit (impl_x impl_q : list expr).
(** LM.dynam_f_x, LM.dynam_g_q and LM.arguments: absent, or those that a
    set-up left. [su_n_u] and [su_n_lambdas] of it are the sizes of the inputs of
    dynam_f_x. *)
Record lm := { lm_q : list atom; lm_dyn : lm_dynamics; lm_kept : option setup }.
(** The set-up of an object without kept functions. *)
Definition fresh_setup (q : list atom) (d : lm_dynamics) (u_vars : uvars) : Res setup :=
  match d with
  | Lm_explicit RHS => explicit_setup dyn_order sym_order q RHS u_vars
  | Lm_implicit impl_x impl_q => implicit_setup dyn_order sym_order q impl_x impl_q u_vars
  end.
(** opti.py:3570-3592, 3621-3656 *)
Definition dynamic_setup (o : lm) (u_vars : uvars) : Res setup * lm :=
  match lm_kept o with
  | Some s =>
      (Ok {| su_n_q := length (lm_q o); su_n_u := su_n_u s;
             su_n_lambdas := match lm_dyn o with Lm_explicit _ => 0 | Lm_implicit _ _ => su_n_lambdas s end;
             su_params_sym := su_params_sym s; su_f := su_f s; su_g := su_g s |}, o)
  | None =>
      match fresh_setup (lm_q o) (lm_dyn o) u_vars with
      | Ok s => (Ok s, {| lm_q := lm_q o; lm_dyn := lm_dyn o; lm_kept := Some s |})
      | Err e => (Err e, o)
      end
  end.
(** An object that has just been made *)
Definition new (q : list atom) (d : lm_dynamics) : lm := {| lm_q := q; lm_dyn := d; lm_kept := None |}.
(** Problems made one after another with the same object *)
Fixpoint setups (o : lm) (us : list uvars) : list (Res setup) * lm :=
  match us with
  | [] => ([], o)
  | u :: us' => let '(r, o1) := dynamic_setup o u in let '(rs, o2) := setups o1 us' in (r :: rs, o2)
  end.
End Cache.
