(** Examples for the casadi and numpy functions of symbolic dynamics. *)
From Coq Require Import String Ascii.
From Verif Require Import Prelude PreludeFacts Mat SymModel SymSpec SymProofs FuncDynModel FuncDynSpec CasModel CasSpec CasProofs CasRhsProofs CasNameProofs CasDynProofs CasResProofs CasImplProofs CasSetupProofs NumSymModel NumSymProofs CasToolProofs.
Open Scope R_scope.
Open Scope list_scope.

(** ** One order of each set *)
Definition dyns (e : expr) : list atom := nodup atom_eq_dec (filter is_dyn (atoms e)).
Definition plain (e : expr) : list string := nodup string_dec (concat (map (fun a => match a with Static s => [s] | _ => [] end) (atoms e))).
Lemma orders_ok : iterates dyns plain.
Proof.
  intros e. split; [|split].
  - intros a. unfold dyns. rewrite nodup_In, filter_In. tauto.
  - intros n. unfold plain. rewrite nodup_In, in_concat. split.
    + intros (l & Hl & Hn). apply in_map_iff in Hl. destruct Hl as ([s|s k] & <- & Ha); [destruct Hn as [<-|[]]; auto|destruct Hn].
    + intros H. exists [n]. split; [apply in_map_iff; exists (Static n); auto|cbn; auto].
  - apply NoDup_nodup.
Qed.

Lemma no_underscore s : ~ In "_"%char (list_ascii_of_string s) -> ~ contains "_dot" s.
Proof.
  intros H (a & b & ->). apply H. clear H. induction a as [|c a IH]; cbn; auto.
Qed.
Lemma theta_clean : clean_name "theta".
Proof.
  split; [discriminate|]. split; [discriminate|]. split; [intros [r E]; discriminate E|]. split; [intros [r E]; discriminate E|].
  apply no_underscore. cbn. intuition discriminate.
Qed.

(** ** A pendulum: theta'' = u_0 - g * theta *)
Definition th (k : nat) : expr := Var (Dyn "theta" k).
Definition pend_rhs : list expr := [Plus (Var (Static "u_0")) (Times (Num (-1)) (Times (Var (Static "g")) (th 0)))].
Lemma pend_hyps : pend_rhs <> [] /\ can_be_called pend_rhs /\ Forall standard_name ["theta"%string] /\ Forall clean_name ["theta"%string] /\ NoDup ["theta"%string] /\
  (forall i, ~ In ("u_" ++ str_nat i)%string ["theta"%string]) /\ (forall i, ~ In (x_name i) ["theta"%string]) /\ standard_controls (U_int 1).
Proof.
  split; [discriminate|]. split; [intros n k H; cbn in H; intuition congruence|]. split; [repeat constructor; cbn; congruence|].
  split; [constructor; [exact theta_clean|constructor]|]. split; [repeat constructor; intros []|].
  split; [intros i [H|[]]; discriminate H|]. split; [intros i [H|[]]; discriminate H|]. right; eauto.
Qed.
Lemma pend_x : exists f, rhs_to_casadi_function dyns plain pend_rhs (Q_list (coords 0 ["theta"%string])) (U_int 1) "x" = Ok f /\
  forall a v u g, cas_call f [[a; v]; [u]; [g]] = Ok [v; u + -1 * (g * a)].
Proof. eexists. split; [vm_compute; reflexivity|]. intros. reflexivity. Qed.
Lemma pend_numpy : exists F, RHS2numpy dyns plain pend_rhs (Q_list (coords 0 ["theta"%string])) (U_int 1) "x" = Ok F /\
  forall a v u g, F [A1 [a; v]; A1 [u]; A1 [g]] = Ok (A1 [v; u + -1 * (g * a)]).
Proof. eexists. split; [vm_compute; reflexivity|]. intros. reflexivity. Qed.
Lemma pend_setup : exists s, explicit_setup dyns plain (coords 0 ["theta"%string]) pend_rhs (U_int 1) = Ok s /\
  su_n_q s = 1%nat /\ su_n_u s = 1%nat /\ su_n_lambdas s = 0%nat /\ su_params_sym s = ["g"%string] /\
  forall a v v' w u g, su_f s [a; v] [v'; w] [u] [] [g] = Ok [v' - v; w - (u + -1 * (g * a))].
Proof. eexists. split; [vm_compute; reflexivity|]. repeat split. Qed.
(** Short names: q1'' = u_0 - g * q1. *)
Definition short_rhs : list expr := [Plus (Var (Static "u_0")) (Times (Num (-1)) (Times (Var (Static "g")) (Var (Dyn "q1" 0))))].
Lemma short_fun : exists f, rhs_to_casadi_function dyns plain short_rhs (Q_list (coords 0 ["q1"%string])) U_none "q" = Ok f /\
  forall a v u g q_1, cas_call f [[a]; [v]; [u]; [g; q_1]] = Ok [u + -1 * (g * q_1)].
Proof. eexists. split; [vm_compute; reflexivity|]. intros. reflexivity. Qed.

(** ** Implicit: m theta'' - F = 0, with F among the controls *)
Definition impl_q_F : list expr := [Plus (Times (Var (Static "m")) (th 2)) (Times (Num (-1)) (Var (Dyn "F" 0)))].
Definition impl_x_F : list expr :=
  [Plus (Var (Dyn "x_0" 1)) (Times (Num (-1)) (Var (Dyn "x_1" 0))); Plus (Times (Var (Static "m")) (Var (Dyn "x_1" 1))) (Times (Num (-1)) (Var (Dyn "F" 0)))].
Lemma impl_F_form : state_form ["theta"%string] impl_q_F impl_x_F.
Proof.
  split; [reflexivity|]. split.
  - intros rho i Hi. cbn [length] in Hi. replace i with 0%nat by lia. cbn. lra.
  - intros rho i Hi. cbn [length impl_q_F] in Hi. replace i with 0%nat by lia. reflexivity.
Qed.
Definition rhs_F : list expr := [Times (Var (Static "r")) (Var (Dyn "F" 0))].
Definition setup_shape (s : Res setup) : option (nat * nat * nat * list string) :=
  match s with Ok s => Some (su_n_q s, su_n_u s, su_n_lambdas s, su_params_sym s) | Err _ => None end.
Lemma controls_F : setup_shape (explicit_setup dyns plain (coords 0 ["theta"%string]) rhs_F (U_list [Static "F"])) = Some (1, 1, 0, ["r"])%nat%string /\
  setup_shape (implicit_setup dyns plain (coords 0 ["theta"%string]) impl_x_F impl_q_F (U_list [Static "F"])) = Some (1, 0, 0, ["F"; "m"; "theta_dot_dot"])%nat%string.
Proof. split; vm_compute; reflexivity. Qed.
Lemma setup_shape_ok s t : setup_shape s = Some t -> exists st, s = Ok st /\ (su_n_q st, su_n_u st, su_n_lambdas st, su_params_sym st) = t.
Proof. destruct s as [st|]; cbn; [|discriminate]. intros H. injection H as <-. eauto. Qed.
Lemma implicit_controls : exists names RHS impl_x impl_q U s s', state_form names impl_q impl_x /\
  explicit_setup dyns plain (coords 0 names) RHS U = Ok s /\ implicit_setup dyns plain (coords 0 names) impl_x impl_q U = Ok s' /\
  U = U_list [Static "F"] /\ su_n_u s = 1%nat /\ su_n_u s' = 0%nat /\ In "F"%string (su_params_sym s').
Proof.
  destruct controls_F as [A B]. apply setup_shape_ok in A, B. destruct A as (s & Es & Ts), B as (s' & Es' & Ts'). injection Ts as _ U1 _ _. injection Ts' as _ U2 _ P2.
  exists ["theta"%string], rhs_F, impl_x_F, impl_q_F, (U_list [Static "F"]), s, s'. split; [exact impl_F_form|]. rewrite P2. cbn. auto 10.
Qed.
(** ** Implicit: theta'' - u_2 = 0 *)
Definition impl_q_u : list expr := [Plus (th 2) (Times (Num (-1)) (Var (Static "u_2")))].
Definition impl_x_u : list expr :=
  [Plus (Var (Dyn "x_0" 1)) (Times (Num (-1)) (Var (Dyn "x_1" 0))); Plus (Var (Dyn "x_1" 1)) (Times (Num (-1)) (Var (Static "u_2")))].
Lemma impl_u_form : state_form ["theta"%string] impl_q_u impl_x_u.
Proof.
  split; [reflexivity|]. split.
  - intros rho i Hi. cbn [length] in Hi. replace i with 0%nat by lia. cbn. lra.
  - intros rho i Hi. cbn [length impl_q_u] in Hi. replace i with 0%nat by lia. reflexivity.
Qed.
Definition fun_sizes (f : Res cas_function) : option (list nat) := match f with Ok f => Some (cf_sizes f) | Err _ => None end.
Lemma u_sizes : setup_shape (implicit_setup dyns plain (coords 0 ["theta"%string]) impl_x_u impl_q_u U_none) = Some (1, 1, 0, ["theta_dot_dot"; "u_2"])%nat%string /\
  fun_sizes (implicit_dynamic_q_to_casadi_function dyns plain impl_q_u (Q_list (coords 0 ["theta"%string])) U_none) = Some [1; 1; 1; 0; 0; 1]%nat /\
  fun_sizes (implicit_dynamic_x_to_casadi_function dyns plain impl_x_u (Q_list (coords 0 ["x_0"%string; "x_1"%string])) U_none) = Some [2; 2; 1; 0; 0]%nat.
Proof. repeat split; vm_compute; reflexivity. Qed.

Lemma dynamic_F : exists f, rhs_to_casadi_function dyns plain rhs_F (Q_list (coords 0 ["theta"%string])) (U_list (coords 0 ["F"%string])) "x" = Ok f /\
  forall a v u F r, cas_call f [[a; v]; [u]; [F; r]] = Ok [v; r * F].
Proof. eexists. split; [vm_compute; reflexivity|]. intros. reflexivity. Qed.
(** f takes one control and g takes none, but one parameter. *)
Lemma implicit_disagree : exists names impl_x impl_q s, state_form names impl_q impl_x /\
  implicit_setup dyns plain (coords 0 names) impl_x impl_q U_none = Ok s /\ su_n_u s = 1%nat /\
  (forall x xd u lam p y, su_f s x xd u lam p = Ok y -> length u = 1%nat) /\ (exists x xd u lam p y, su_f s x xd u lam p = Ok y) /\
  (forall q v a u lam p y, su_g s q v a u lam p = Ok y -> length u = 0%nat).
Proof.
  destruct u_sizes as (A & B & C). apply setup_shape_ok in A. destruct A as (s & Es & Ts). injection Ts as _ U1 _ _.
  exists ["theta"%string], impl_x_u, impl_q_u, s. split; [exact impl_u_form|]. split; [exact Es|]. split; [exact U1|].
  pose proof pend_hyps as (_ & _ & _ & _ & ND & _ & NX & _).
  destruct (setup_parts _ _ _ _ _ _ _ ND (clear_without _ (fun i _ => NX i)) Es) as (r & f & g & _ & Hf & Hg & _ & _ & _ & _ & Ef & Eg).
  change (x_names (2 * length ["theta"%string])) with ["x_0"%string; "x_1"%string] in Hf. rewrite Hf in C. rewrite Hg in B. cbn [fun_sizes] in B, C. injection B as B. injection C as C.
  split; [|split].
  - intros x xd u lam p y H. rewrite Ef in H. unfold cas_call in H. destruct (list_eq_dec _ _ _) as [E|]; [|discriminate]. rewrite C in E. cbn [map] in E. injection E as _ _ E _ _. exact E.
  - exists [0; 0], [0; 0], [0], [], []. rewrite Ef.
    assert (exists y, cas_call f [[0; 0]; [0; 0]; [0]; []; []] = Ok y) as K; [|exact K].
    assert (implicit_vars "x" (Q_list (coords 0 ["x_0"%string; "x_1"%string])) = Ok (coords 0 ["x_0"%string; "x_1"%string])) as EV by reflexivity.
    destruct (impl_arguments_x _ _ orders_ok _ _ _ _ Hf) as [rx Hx].
    destruct (impl_x_value _ _ orders_ok _ _ _ _ _ _ EV Hx Hf) as [Sz V]. specialize (V (fun _ => 0)). rewrite C in Sz. injection Sz as Z1 Z2 Z3 Z4 Z5.
    assert (W : forall (l : list atom) k, length l = k -> map (fun _ => 0) l = repeat 0 k) by (intros l k <-; induction l; cbn; f_equal; auto).
    assert (W' : forall (l : list string) k, length l = k -> map (fun _ => 0) l = repeat 0 k) by (intros l k <-; induction l; cbn; f_equal; auto).
    rewrite (W (r_q rx) 2%nat), (W (r_u rx) 1%nat), (W' (r_lambdas rx) 0%nat), (W' (r_params rx) 0%nat) in V by auto. 
    rewrite (W (r_v rx) 2%nat) in V by (rewrite (proj1 (arguments_lengths _ _ _ _ _ _ _ _ Hx)); auto). cbn [repeat] in V. eauto.
  - intros q v a u lam p y H. rewrite Eg in H. unfold cas_call in H. destruct (list_eq_dec _ _ _) as [E|]; [|discriminate]. rewrite B in E. cbn [map] in E. injection E as _ _ _ E _ _. exact E.
Qed.
(** ** Sym2Fx: a number of states *)
Definition sym_x : list expr := [Var (Dyn "x_0" 0)].
Lemma sym2fx_number : exists F, Sym2Fx dyns plain sym_x (Q_int 1) U_none = Ok F /\ forall x p, F [A1 [x]; A1 []; A1 [p]] = Ok (A1 [p]).
Proof. eexists. split; [vm_compute; reflexivity|]. intros. reflexivity. Qed.
Lemma sym2fx_list : exists F, Sym2Fx dyns plain sym_x (Q_list (coords 0 ["x_0"%string])) U_none = Ok F /\ forall x, F [A1 [x]; A1 []; A1 []] = Ok (A1 [x]).
Proof. eexists. split; [vm_compute; reflexivity|]. intros. reflexivity. Qed.
