(** C100: the numbers of an expression. Specification: RoundSpec.v. *)
From Coq Require Import String.
From Verif Require Import Prelude RoundModel RoundSpec RoundProofs.
Open Scope R_scope.
Open Scope list_scope.

(** ** C100  integerize, roundize and deletezeros *)

(** While no simplification computes with floats, the value is that of the
    expression with every float rounded, and no float is left. *)
Theorem C100_integerize_partial :
  forall make, keeps_floats make -> forall round0 s f t,
  value s f (fun r => r) (integerize make round0 t) = value s f (fun r => IZR (round0 r)) t.
Proof. exact integerize_value. Qed.
Print Assumptions C100_integerize_partial.

Theorem C100_integers_partial :
  forall make, makes_no_floats make -> forall round0 t, floats (integerize make round0 t) = [].
Proof. exact integerize_floats. Qed.
Print Assumptions C100_integers_partial.

Theorem C100_roundize_partial :
  forall make, keeps_floats make -> forall round n, (forall r, round (round r n) n = round r n) ->
  forall s f t, value s f (fun r => r) (roundize make round t n) = value s f (fun r => round r n) t.
Proof. exact roundize_value. Qed.
Print Assumptions C100_roundize_partial.

Theorem C100_rounded_partial :
  forall make, makes_no_floats make -> forall round n t q,
  In q (floats (roundize make round t n)) -> exists p, In p (floats t) /\ q = round p n.
Proof. exact roundize_floats. Qed.
Print Assumptions C100_rounded_partial.

Theorem C100_deletezeros_partial :
  forall make, keeps_floats make -> forall tol s f t,
  value s f (fun r => r) (deletezeros make t tol) = value s f (fun r => if Rlt_dec (Rabs r) tol then 0 else r) t.
Proof. exact deletezeros_value. Qed.
Print Assumptions C100_deletezeros_partial.

Theorem C100_not_small_partial :
  forall make, makes_no_floats make -> forall tol t q,
  In q (floats (deletezeros make t tol)) -> In q (floats t) /\ tol <= Rabs q.
Proof. exact deletezeros_floats. Qed.
Print Assumptions C100_not_small_partial.

(** The simplifications of sums, products and powers with integers are such. *)
Example C100_make_ex : keeps_floats make_int /\ makes_no_floats make_int /\
  forall round0, nearest round0 -> integerize make_int round0 powered = Itg 3.
Proof. exact (conj make_int_keeps (conj make_int_no_floats powered_int)). Qed.

(** With the simplifications of sympy, which compute with floats: right when
    all the floats of the expression are equal. *)
Theorem C100_one_float_partial :
  forall round0 r s f t, (forall q, In q (floats t) -> q = r) ->
  value s f (fun q => q) (integerize make_sympy round0 t) = value s f (fun q => IZR (round0 q)) t /\
  floats (integerize make_sympy round0 t) = [].
Proof. exact integerize_one. Qed.
Print Assumptions C100_one_float_partial.
Example C100_one_float_ex : forall q, In q (floats (Op OPow (Op OAdd (Sym "x") (Flt (7 / 5))) (Flt (7 / 5)))) -> q = 7 / 5.
Proof. cbn. intuition congruence. Qed.

(** With two floats it can be wrong, and leave a float: (0.4 x + 3) ** 1.4
    gives 3 ** 1.4 computed as a float, and not 3. *)
Theorem C100_computed_refuted :
  forall round0, nearest round0 -> exists t,
  integerize make_sympy round0 t = Flt (Rpower 3 (7 / 5)) /\ 3 < Rpower 3 (7 / 5) /\
  forall s f, value s f (fun r => IZR (round0 r)) t = 3.
Proof.
  intros round0 H. exists powered.
  exact (conj (powered_sympy round0 H) (conj three_power (fun s f => powered_value round0 s f H))).
Qed.
Print Assumptions C100_computed_refuted.
Example C100_nearest_ex : exists round0, nearest round0.
Proof.
  exists (fun r => Int_part (r + 1 / 2)). intros r. destruct (base_Int_part (r + 1 / 2)) as [H1 H2].
  apply Rabs_le. lra.
Qed.
