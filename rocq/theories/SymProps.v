(** Properties C56, C57 and C58: renaming and classifying symbols.  Only
    statements. *)
From Coq Require Import Reals List String Permutation Sorting.Sorted.
From Verif Require Import Prelude SymModel SymSpec SymProofs.
Import ListNotations.
Open Scope R_scope.
Open Scope list_scope.

(** ** C56: renaming *)

(** diff_to_symb_expr, in whatever order the set of dynamic symbols is iterated: each symbol or derivative is replaced by its own symbol, all at once, so the substitution of one does not disturb that of its derivatives. *)
Theorem C56_substitution :
  forall order e e', Forall (fun a => is_dyn a = true) order ->
  (forall a, In a (atoms e) -> is_dyn a = true -> In a order) ->
  diff_to_symb_expr order e = Ok e' ->
  e' = rename symb_of e.
Proof. exact (diff_to_symb_expr_value). Qed.
Print Assumptions C56_substitution.

(** The new expression has the value of the old one. *)
Theorem C56_value :
  forall order e e', Forall (fun a => is_dyn a = true) order ->
  (forall a, In a (atoms e) -> is_dyn a = true -> In a order) ->
  diff_to_symb_expr order e = Ok e' ->
  forall rho, eval rho e' = eval (fun a => rho (symb_of a)) e.
Proof. exact (fun order e e' A B C rho => eq_trans (f_equal (eval rho) (diff_to_symb_expr_value order e e' A B C)) (eval_rename symb_of e rho)). Qed.
Print Assumptions C56_value.

(** It fails only for a derivative of a symbol called just q (or with no name). *)
Theorem C56_defined :
  forall order e, (exists e', diff_to_symb_expr order e = Ok e') <->
  (forall n k, In (Dyn n (S k)) order -> n <> ""%string /\ n <> "q"%string).
Proof. exact (diff_to_symb_expr_ok). Qed.
Print Assumptions C56_defined.

(** Distinct symbols and derivatives get distinct symbols, if their names are clean.  Missing: other names (below). *)
Theorem C56_distinct_partial :
  forall a b s, clean a -> clean b -> diff_to_symb a = Ok s -> diff_to_symb b = Ok s ->
  a = b \/ (exists n, (a = Static n /\ b = Dyn n 0) \/ (a = Dyn n 0 /\ b = Static n)).
Proof. exact (diff_to_symb_injective). Qed.
Print Assumptions C56_distinct_partial.

(** Other names collide; and a coordinate called q is an error. *)
Theorem C56_distinct_refuted :
  diff_to_symb (Dyn "q_1" 1) = diff_to_symb (Static "v_1") /\
  diff_to_symb (Dyn "x" 1) = diff_to_symb (Dyn "x_dot" 0) /\
  diff_to_symb (Dyn "q_dot_1" 2) = diff_to_symb (Dyn "q_1" 3) /\
  diff_to_symb (Dyn "q" 1) = Err IndexError.
Proof. exact (symb_collisions). Qed.
Print Assumptions C56_distinct_refuted.

(** standard_notation, in whatever order the symbols are iterated. *)
Theorem C56_standard :
  forall order e, (forall n, In (Static n) (atoms e) -> std_name n <> None -> In n order) ->
  standard_notation order e = rename std e.
Proof. exact (standard_notation_value). Qed.
Print Assumptions C56_standard.

(** It merges q1 and q_1. *)
Theorem C56_standard_refuted :
  std (Static "q1") = std (Static "q_1") /\
  standard_notation ["q1"%string; "q_1"%string] (Plus (Var (Static "q1")) (Times (Num (-1)) (Var (Static "q_1")))) =
  Plus (Var (Static "q_1")) (Times (Num (-1)) (Var (Static "q_1"))).
Proof. exact (std_collision). Qed.
Print Assumptions C56_standard_refuted.

Example C56_example :
  diff_to_symb_expr [Dyn "q_0" 0; Dyn "q_0" 2; Dyn "q_0" 1; Dyn "th" 1]
    (Plus (Var (Dyn "q_0" 2)) (Times (Var (Dyn "q_0" 1)) (Plus (Var (Dyn "th" 1)) (Var (Dyn "q_0" 0))))) =
  Ok (Plus (Var (Static "a_0")) (Times (Var (Static "v_0")) (Plus (Var (Static "th_dot")) (Var (Static "q_0"))))).
Proof. exact (symb_example). Qed.

Example C56_clean_example :
  clean_name "q_12" /\ clean_name "theta" /\ clean_name "x_0".
Proof. exact (clean_example). Qed.

(** ** C57: classification *)

(** The symbols classified are the standard names of the symbols of the expressions. *)
Theorem C57_symbols :
  forall order names e e' s, Forall (fun a => is_dyn a = true) order ->
  (forall a, In a (atoms e) -> is_dyn a = true -> In a order) ->
  diff_to_symb_expr order e = Ok e' ->
  (forall n, In (Static n) (atoms e') -> In n names) ->
  (In (Static s) (atoms (standard_notation names e')) <-> exists a, In a (atoms e) /\ std (symb_of a) = Static s).
Proof. exact (symbols_of). Qed.
Print Assumptions C57_symbols.

(** The result does not depend on the order in which sets are iterated, nor on that of the expressions. *)
Theorem C57_order :
  forall sets sets' q_vars u_vars sl sa, Permutation (concat sets) (concat sets') ->
  find_arguments sets q_vars u_vars sl sa = find_arguments sets' q_vars u_vars sl sa.
Proof. exact (find_arguments_perm). Qed.
Print Assumptions C57_order.

(** Every symbol is in exactly one group, if the groups that are asked for do not overlap.  Missing: groups that overlap (below). *)
Theorem C57_once_partial :
  forall sets q_vars u_vars sl sa r s,
  find_arguments sets q_vars u_vars sl sa = Ok r ->
  In s (concat sets) ->
  (forall q v a, q_groups q_vars = Ok (q, v, a) -> disjoint (q ++ v) a) ->
  (forall q v a u, q_groups q_vars = Ok (q, v, a) -> u_group sets u_vars = Ok u -> disjoint u (q ++ v) /\ disjoint u a) ->
  exactly_one [In (Static s) (r_q r ++ r_v r); In (Static s) (r_a r); In (Static s) (r_u r); In s (r_params r); In s (r_lambdas r)].
Proof. exact (find_arguments_partition). Qed.
Print Assumptions C57_once_partial.

(** With numbered coordinates and controls they never overlap. *)
Theorem C57_once_numbered :
  forall sets n u_vars sl sa r s, u_vars = U_none \/ (exists m, u_vars = U_int m) ->
  find_arguments sets (Q_int n) u_vars sl sa = Ok r -> In s (concat sets) ->
  exactly_one [In (Static s) (r_q r ++ r_v r); In (Static s) (r_a r); In (Static s) (r_u r); In s (r_params r); In s (r_lambdas r)].
Proof. exact (find_arguments_numbered). Qed.
Print Assumptions C57_once_numbered.

(** The parameters are the rest. *)
Theorem C57_params :
  forall sets q_vars u_vars sl sa r q v a u s,
  find_arguments sets q_vars u_vars sl sa = Ok r ->
  q_groups q_vars = Ok (q, v, a) -> u_group sets u_vars = Ok u ->
  (In s (r_params r) <->
   In s (concat sets) /\ ~ In (Static s) u /\ ~ In (Static s) q /\ ~ In (Static s) v /\
   (sa = true -> ~ In (Static s) a) /\ (sl = true -> is_lambda s = true -> In (Static s) a)).
Proof. exact (find_arguments_params). Qed.
Print Assumptions C57_params.

(** The parameters and the multipliers, by the names of the symbols. *)
Theorem C57_multipliers :
  forall sets q_vars u_vars sl sa r q v a u s,
  find_arguments sets q_vars u_vars sl sa = Ok r ->
  q_groups q_vars = Ok (q, v, a) -> u_group sets u_vars = Ok u ->
  (In s (r_params r) <->
   In s (concat sets) /\ ~ In (Static s) u /\ ~ In (Static s) q /\ ~ In (Static s) v /\
   (sa = true -> ~ In (Static s) a) /\ (sl = true -> multiplier_name s -> In (Static s) a)) /\
  (In s (r_lambdas r) <->
   sl = true /\ In s (concat sets) /\ ~ In (Static s) u /\ ~ In (Static s) q /\ ~ In (Static s) v /\ ~ In (Static s) a /\ multiplier_name s).
Proof. exact (find_arguments_groups). Qed.
Print Assumptions C57_multipliers.

Example C57_multiplier_names :
  multiplier_name "lam0"%string /\ multiplier_name "lam12"%string /\ ~ multiplier_name "lambda"%string /\ ~ multiplier_name "lam"%string.
Proof. exact (ex_multiplier_names). Qed.

(** They are in alphabetical order. *)
Theorem C57_sorted :
  forall sets q_vars u_vars sl sa r,
  find_arguments sets q_vars u_vars sl sa = Ok r ->
  StronglySorted (fun x y => (x <=? y)%string = true) (r_params r) /\ StronglySorted (fun x y => (x <=? y)%string = true) (r_lambdas r).
Proof. exact (find_arguments_sorted). Qed.
Print Assumptions C57_sorted.

Example C57_example :
  exists r,
  find_arguments [["m"; "q_0"; "lam0"; "a_0"]; ["u_0"; "g"; "v_0"; "m"]]%string (Q_int 1) U_none true true = Ok r /\
  r_q r = [Static "q_0"] /\ r_v r = [Static "v_0"] /\ r_a r = [Static "a_0"] /\ r_u r = [Static "u_0"] /\
  r_params r = ["g"; "m"]%string /\ r_lambdas r = ["lam0"]%string.
Proof. exact (find_example). Qed.

(** A control whose index is not below the number of symbols is taken for a parameter. *)
Theorem C57_index_refuted :
  exists r,
  find_arguments [["u_7"; "q_0"]%string] (Q_int 1) U_none false false = Ok r /\ r_u r = [] /\ r_params r = ["u_7"%string].
Proof. exact (u_index). Qed.
Print Assumptions C57_index_refuted.

(** Found controls are in alphabetical order: u_10 goes before u_2. *)
Theorem C57_order_refuted :
  exists r,
  find_arguments [["u_2"; "u_10"; "k"; "m"; "g"; "l"; "d"; "c"; "b"; "p"; "r"]%string] (Q_int 1) U_none false false = Ok r /\
  r_u r = [Static "u_10"; Static "u_2"].
Proof. exact (u_order). Qed.
Print Assumptions C57_order_refuted.

(** A control given as a dynamic symbol is also taken for a parameter. *)
Theorem C57_dynamic_refuted :
  exists r,
  find_arguments [["F"; "q_0"]%string] (Q_int 1) (U_list [Dyn "F" 0]) false false = Ok r /\
  r_u r = [Dyn "F" 0] /\ r_params r = ["F"%string].
Proof. exact (u_dynamic). Qed.
Print Assumptions C57_dynamic_refuted.

(** A coordinate given as a control is in two groups. *)
Theorem C57_overlap_refuted :
  exists r,
  find_arguments [["q_0"]%string] (Q_int 1) (U_list [Static "q_0"]) false false = Ok r /\
  In (Static "q_0") (r_q r) /\ In (Static "q_0") (r_u r).
Proof. exact (u_overlap). Qed.
Print Assumptions C57_overlap_refuted.

(** ** C58: coordinates to states *)

(** q_2_x is the simultaneous substitution exactly when no name clashes with a
    later replacement. *)
Theorem C58_exactly :
  forall names, NoDup names ->
  ((forall e, q_2_x e (map (fun n => Dyn n 0) names) (map (fun n => Dyn n 1) names) = Ok (rename (x_for names) e)) <->
   (forall i j, (i < j < length names)%nat -> nth j names ""%string <> x_name i) /\
   (forall i, (i < length names)%nat -> ~ In (x_name (length names + i)) names)).
Proof. exact q_2_x_exactly. Qed.
Print Assumptions C58_exactly.

(** Missing: names that clash (below). *)
Theorem C58_substitution_partial :
  forall names e e', NoDup names -> x_clear names ->
  q_2_x e (map (fun n => Dyn n 0) names) (map (fun n => Dyn n 1) names) = Ok e' ->
  e' = rename (x_for names) e.
Proof. exact (q_2_x_clear). Qed.
Print Assumptions C58_substitution_partial.

Theorem C58_value_partial :
  forall names e e', NoDup names -> x_clear names ->
  q_2_x e (map (fun n => Dyn n 0) names) (map (fun n => Dyn n 1) names) = Ok e' ->
  forall rho, eval rho e' = eval (fun a => rho (x_for names a)) e.
Proof. exact (fun names e e' A B C rho => eq_trans (f_equal (eval rho) (q_2_x_clear names e e' A B C)) (eval_rename (x_for names) e rho)). Qed.
Print Assumptions C58_value_partial.

(** Names of which the substitution is right: without states, the states in
    their order, and a state moved to the front. *)
Example C58_clear_examples : x_clear ["q_0"; "q_1"]%string /\ x_clear ["x_0"; "x_1"]%string /\ x_clear ["x_1"; "q_0"]%string /\ ~ x_clear ["x_1"; "x_0"]%string.
Proof. exact clear_examples. Qed.

(** Lists of different lengths are rejected, and nothing else is. *)
Theorem C58_lengths :
  forall e qs qdots, q_2_x e qs qdots = Err AssertionError <-> length qs <> length qdots.
Proof. exact (q_2_x_error). Qed.
Print Assumptions C58_lengths.

Example C58_example :
  q_2_x (Plus (Var (Dyn "q_0" 2)) (Times (Var (Dyn "q_1" 0)) (Var (Dyn "q_1" 1)))) (map (fun n => Dyn n 0) ["q_0"; "q_1"]%string) (map (fun n => Dyn n 1) ["q_0"; "q_1"]%string) =
  Ok (Plus (Var (Dyn "x_2" 1)) (Times (Var (Dyn "x_1" 0)) (Var (Dyn "x_3" 0)))).
Proof. exact (q_2_x_example). Qed.

Example C58_names_example :
  NoDup ["q_0"; "q_1"]%string /\ forall i, ~ In (x_name i) ["q_0"; "q_1"]%string.
Proof. exact (q_2_x_names). Qed.

(** The replacements are made one after the other: with coordinates called x_1 and x_0 one replacement undoes the other. *)
Theorem C58_simultaneous_refuted :
  q_2_x (Plus (Var (Dyn "x_1" 0)) (Times (Num 2) (Var (Dyn "x_0" 0)))) [Dyn "x_1" 0; Dyn "x_0" 0] [Dyn "x_1" 1; Dyn "x_0" 1] =
  Ok (Plus (Var (Dyn "x_1" 0)) (Times (Num 2) (Var (Dyn "x_1" 0)))) /\
  rename (x_for ["x_1"; "x_0"]%string) (Plus (Var (Dyn "x_1" 0)) (Times (Num 2) (Var (Dyn "x_0" 0)))) =
  Plus (Var (Dyn "x_0" 0)) (Times (Num 2) (Var (Dyn "x_1" 0))).
Proof. exact (q_2_x_clobbers). Qed.
Print Assumptions C58_simultaneous_refuted.
