From Coq Require Import String Ascii Permutation DecimalString.
From Verif Require Import Prelude PreludeFacts Mat PwInterpModel SymModel SymSpec SymProofs FuncDynModel FuncDynSpec CasModel CasSpec CasProofs CasRhsProofs
  CasNameProofs CasDynProofs CasExamples NumSymModel NumSymProofs PrintModel PrintSpec PrintProofs.
From Verif Require NumpyModel.
Open Scope R_scope.
Open Scope list_scope.

(** ** Names *)
Definition reserved (flavour : string) : list string := ["u"; "params"; "unpack"; "result"; module_of flavour]%string.
Lemma digit_uint u : letters_or_digits (NilEmpty.string_of_uint u) = true.
Proof. induction u; cbn [NilEmpty.string_of_uint letters_or_digits]; rewrite ?IHu; try reflexivity. Qed.
Lemma str_nat_word n : letters_or_digits (str_nat n) = true.
Proof. unfold str_nat, NilZero.string_of_uint. destruct (Nat.to_uint n) eqn:E; try reflexivity; apply digit_uint. Qed.
Lemma numbered_identifier c i : letter c = true -> identifier (String c ("_" ++ str_nat i)) = true.
Proof.
  intros H. unfold identifier. rewrite H. cbn [append letters_or_digits letter digit]. rewrite str_nat_word.
  replace (mem_s (String c (String "_" (str_nat i))) keywords) with false; [reflexivity|].
  symmetry. unfold mem_s. apply not_true_is_false. rewrite existsb_exists. intros (k & Hk & E). apply String.eqb_eq in E. subst k.
  cbn [keywords In] in Hk. intuition discriminate.
Qed.
Lemma numbered_reserved c i flavour : ~ In (String c ("_" ++ str_nat i)) (reserved flavour).
Proof.
  unfold reserved, module_of. cbn [append].
  destruct (flavour =? "numpy")%string; [|destruct (flavour =? "np")%string; [|destruct (flavour =? "casadi")%string]];
    cbn [In]; intuition discriminate.
Qed.

(** ** Flavours *)
Lemma prefix_split p : forall s, prefix p s = true -> exists t, s = (p ++ t)%string.
Proof.
  induction p as [|c p IH]; intros [|d s] H; cbn [prefix] in H; try discriminate; [exists ""%string; reflexivity|exists (String d s); reflexivity|].
  destruct (ascii_dec c d) as [->|]; [|discriminate]. destruct (IH s H) as [t ->]. exists t. reflexivity.
Qed.
Lemma sub_numpy_ok by_ s : replaced "numpy" by_ s (sub_numpy by_ 0 s).
Proof.
  assert (H : forall n s, (String.length s <= n)%nat -> replaced "numpy" by_ s (sub_numpy by_ 0 s)).
  { clear s. induction n as [|n IH]; intros s L; (destruct s as [|c s]; [constructor|]); [cbn in L; lia|].
    cbn [sub_numpy]. destruct (prefix "numpy" (String c s)) eqn:P.
    - destruct (prefix_split _ _ P) as [t E]. rewrite E. injection E as -> ->. cbn [append sub_numpy].
      change (String "n" (String "u" (String "m" (String "p" (String "y" t))))) with ("numpy" ++ t)%string.
      apply Rep_here. apply IH. cbn [String.length] in L. lia.
    - apply Rep_skip; [exact P|]. apply IH. cbn [String.length] in L. lia. }
  apply (H (String.length s)). lia.
Qed.
Lemma prefix_app p s : prefix p (p ++ s) = true.
Proof. induction p as [|c p IH]; cbn [append prefix]; [destruct s; reflexivity|]. destruct (ascii_dec c c); congruence. Qed.
Lemma append_inj p s t : (p ++ s)%string = (p ++ t)%string -> s = t.
Proof. induction p as [|c p IH]; cbn [append]; intros H; [exact H|]. injection H as H. auto. Qed.
Lemma replaced_unique old new s t t' : old <> ""%string -> replaced old new s t -> replaced old new s t' -> t = t'.
Proof.
  intros NE H. revert t'. induction H as [|s t H IH|c s t P H IH]; intros t' H'.
  - inversion H' as [|s' t0 H0 E1 E2|]; [reflexivity|]. destruct old; [congruence|discriminate].
  - remember (old ++ s)%string as w eqn:W. destruct H' as [|s' t0 H0|c s' t0 P' H0].
    + destruct old; [congruence|discriminate].
    + apply append_inj in W. subst s'. f_equal. now apply IH.
    + rewrite W, prefix_app in P'. discriminate.
  - remember (String c s) as w eqn:W in H'. destruct H' as [|s' t0 H0|c' s' t0 P' H0]; [discriminate| |].
    + rewrite <- W in P. rewrite prefix_app in P. discriminate.
    + injection W as -> ->. f_equal. now apply IH.
Qed.
Theorem flavours_ok doprint str flavour x : 
  (flavour = "numpy"%string -> printer_function doprint str flavour x = doprint x) /\
  (flavour = "np"%string -> replaced "numpy" "np" (doprint x) (printer_function doprint str flavour x)) /\
  (flavour = "casadi"%string -> replaced "numpy" "cas" (doprint x) (printer_function doprint str flavour x)) /\
  (~ In flavour ["numpy"; "np"; "casadi"]%string -> printer_function doprint str flavour x = str x).
Proof.
  unfold printer_function. repeat split; intros H; try subst flavour; cbn [String.eqb Ascii.eqb Bool.eqb]; try apply sub_numpy_ok; [reflexivity|].
  cbn [In] in H. destruct (String.eqb_spec flavour "numpy"); [subst; tauto|]. destruct (String.eqb_spec flavour "np"); [subst; tauto|].
  destruct (String.eqb_spec flavour "casadi"); [subst; tauto|]. reflexivity.
Qed.
Example flavour_example : replaced "numpy" "cas" "m*numpy.sin(q_0) + numpynumpy" "m*cas.sin(q_0) + cascas".
Proof. exact (sub_numpy_ok "cas" "m*numpy.sin(q_0) + numpynumpy"). Qed.

Section Orders.
Variable dyn_order : expr -> list atom.
Variable sym_order : expr -> list string.
Hypothesis IT : iterates dyn_order sym_order.
Variables doprint str : expr -> string.
Notation normal := (normal dyn_order sym_order).
Notation arguments_of := (arguments_of dyn_order sym_order).
Notation to_numpy := (RHS2numpy dyn_order sym_order).
Notation printer := (printer_function doprint str).
Notation print_RHS := (print_funcs_RHS dyn_order sym_order doprint str).
Notation print_exprs := (print_funcs dyn_order sym_order doprint str).
(** The expressions with the names that stand for their symbols. *)
Notation named l := (map (rename called) l).

Theorem rhs_text_ok RHS Q U flavour : print_RHS RHS Q U flavour =
  (do r <- arguments_of (make_list RHS) Q U false false; Ok (text (printer flavour) (rhs_program r (named (make_list RHS)) flavour))).
Proof.
  unfold print_funcs_RHS. generalize (make_list RHS) as l. intros l. destruct (mapm normal l) as [l'|e] eqn:E; cbn [rbind].
  2:{ unfold CasModel.arguments_of. rewrite E. reflexivity. }
  rewrite (arguments_again _ _ IT _ _ Q U false false E). destruct (normals _ _ IT _ _ E) as [-> _].
  destruct (arguments_of l Q U false false) as [r|]; cbn [rbind]; [|reflexivity]. f_equal.
  unfold text, rhs_program. cbn [p_args p_trailing p_lines]. rewrite map_app, concat_app, appends_text.
  cbn [map line_text source_text String.concat]. unfold line_text, source_text, nl.
  repeat (progress cbn [append] || rewrite <- sapp_assoc). reflexivity.
Qed.
Theorem exprs_text_ok l Q flavour : print_exprs l Q flavour =
  (do r <- arguments_of (make_list l) Q U_none false false; Ok (text (printer flavour) (exprs_program r (named (make_list l)) flavour))).
Proof.
  unfold print_funcs. generalize (make_list l) as l0. intros l0. destruct (mapm normal l0) as [l'|e] eqn:E; cbn [rbind].
  2:{ unfold CasModel.arguments_of. rewrite E. reflexivity. }
  rewrite (arguments_again _ _ IT _ _ Q U_none false false E). destruct (normals _ _ IT _ _ E) as [-> _].
  destruct (arguments_of l0 Q U_none false false) as [r|] eqn:Er; cbn [rbind]; [|reflexivity]. f_equal.
  destruct (arguments_flags _ _ _ _ _ _ _ _ Er) as [FL _]. rewrite (FL eq_refl).
  unfold text, exprs_program. cbn [p_args p_trailing p_lines].
  set (xs := r_q r ++ r_v r). set (us := r_u r). set (ps := map Static (r_params r)).
  rewrite (map_app (line_text _)), concat_app.
  assert (TAIL : String.concat "" (map (line_text (printer flavour)) match named l0 with [e] => [L_one e] | _ => L_empty :: map L_append (named l0) end) =
    match named l0 with [e] => ("    result = " ++ printer flavour e ++ nl)%string | _ => ("    result = []" ++ nl ++ appends (printer flavour) (named l0))%string end).
  { destruct (named l0) as [|e [|e' l']].
    - reflexivity.
    - cbn [map String.concat]. unfold line_text. repeat (progress cbn [append] || rewrite <- sapp_assoc). reflexivity.
    - generalize (e :: e' :: l') as m. intros m. cbn [map]. rewrite concat_cons, appends_text. unfold line_text, nl. repeat (progress cbn [append] || rewrite <- sapp_assoc). reflexivity. }
  rewrite TAIL. clear TAIL. rewrite <- !sapp_assoc. 
  destruct xs as [|x xs'], us as [|u us'], ps as [|p ps']; cbn [length Nat.ltb Nat.leb group app map fst snd String.concat line_text source_text];
    unfold line_text, source_text, nl; repeat (progress cbn [append] || rewrite <- sapp_assoc); reflexivity.
Qed.

Lemma named_cover l Q U r : arguments_of l Q U false false = Ok r -> forall x, In x (named l) -> incl (atoms x) (r_q r ++ r_v r ++ r_u r ++ map Static (r_params r)).
Proof.
  intros Hr x Hx a Ha. destruct (mapm normal l) as [l'|] eqn:E; [|unfold CasModel.arguments_of in Hr; rewrite E in Hr; discriminate].
  destruct (normals _ _ IT _ _ E) as [EL _]. rewrite <- EL in Hx.
  pose proof (arguments_cover _ _ IT _ _ _ _ _ _ _ _ _ E Hr Hx Ha) as C. destruct (arguments_flags _ _ _ _ _ _ _ _ Hr) as [FL FA].
  rewrite (FL eq_refl), (FA eq_refl) in C. exact C.
Qed.

Theorem rhs_value_ok l Q U r flavour val : arguments_of l Q U false false = Ok r -> good_names r flavour -> r_q r <> [] -> (2 <= length (r_u r))%nat -> r_params r <> [] ->
  call (rhs_program r (named l) flavour) [numbers (map val (r_q r ++ r_v r)); numbers (map val (r_u r)); alone (map (fun s => val (Static s)) (r_params r))]
  = Ok (numbers (map val (r_v r) ++ map (value val) l)).
Proof.
  intros Hr GN NQ HU NP. rewrite <- map_static.
  rewrite (rhs_call_ok r flavour (named l) val GN (named_cover _ _ _ _ Hr)); auto; [|apply (proj1 (arguments_lengths _ _ _ _ _ _ _ _ Hr))].
  do 3 f_equal. apply values_rename.
Qed.
Theorem exprs_value_ok l Q r flavour val : arguments_of l Q U_none false false = Ok r -> good_names r flavour -> length (r_u r) <> 1%nat ->
  let x := map val (r_q r ++ r_v r) in let u := map val (r_u r) in let params := map (fun s => val (Static s)) (r_params r) in
  call (exprs_program r (named l) flavour)
    ((match x with [] => [] | _ => [numbers x] end) ++ (match u with [] => [] | _ => [numbers u] end) ++ (match params with [] => [] | _ => [alone params] end))
  = Ok (match l with [e] => V_num (value val e) | _ => numbers (map (value val) l) end).
Proof.
  intros Hr GN HU x u params.
  pose proof (exprs_call_ok r flavour (named l) val GN (named_cover _ _ _ _ Hr) (proj1 (arguments_lengths _ _ _ _ _ _ _ _ Hr)) HU) as H.
  cbn zeta in H. subst x u params. rewrite <- map_static.
  assert (A : forall (m : list atom) (f : vec -> pyval), match map val m with [] => [] | _ => [f (map val m)] end = match m with [] => [] | _ => [f (map val m)] end) by (intros [|b m] f; reflexivity).
  rewrite !A. rewrite H. f_equal. destruct l as [|e [|e' l']]; [reflexivity| |].
  - cbn [map]. f_equal. symmetry. apply value_rename.
  - cbn [map]. unfold numbers. f_equal. f_equal. rewrite <- !value_rename. f_equal. f_equal. apply values_rename.
Qed.

(** The function that RHS2numpy makes. *)
Theorem rhs_numpy_ok l Q U r flavour F x u p : arguments_of l Q U false false = Ok r -> good_names r flavour -> r_q r <> [] -> (2 <= length (r_u r))%nat -> r_params r <> [] ->
  length l = length (r_q r) -> to_numpy l Q U "x" = Ok F -> length x = (2 * length (r_q r))%nat -> length u = length (r_u r) -> length p = length (r_params r) ->
  exists y, F [NumpyModel.A1 x; NumpyModel.A1 u; NumpyModel.A1 p] = Ok (NumpyModel.A1 y) /\
  call (rhs_program r (named l) flavour) [numbers x; numbers u; alone p] = Ok (numbers y).
Proof.
  intros Hr GN NQ HU NP LL HF Lx Lu Lp.
  assert (NE : l <> []) by (intros ->; destruct (r_q r); [congruence|discriminate]).
  destruct (proj1 (numpy_iff _ _ IT l Q U "x" NE) (ex_intro _ _ HF)) as [f Hf].
  destruct (every_argument _ _ IT _ _ _ _ _ _ x u p NE Hr Hf Lx Lu Lp) as (val & -> & -> & ->).
  destruct (to_casadi_value _ _ IT _ _ _ _ _ _ Hr Hf) as (funcs & Ef & V).
  exists (map val (r_v r) ++ map (value val) l). split.
  - apply (numpy_casadi_x _ _ IT l Q U F f NE HF Hf). specialize (V val). unfold groups_of in V. cbn [map app snd String.eqb Ascii.eqb Bool.eqb] in V.
    rewrite map_static in V. rewrite V. f_equal. unfold rhs_funcs_of in Ef. cbn [String.eqb Ascii.eqb Bool.eqb] in Ef.
    rewrite map_length, LL, Nat.eqb_refl in Ef. injection Ef as <-. rewrite map_app, map_map, values_rename. reflexivity.
  - now apply rhs_value_ok with Q U.
Qed.

(** Text and value together. *)
Theorem rhs_function_ok RHS Q U flavour s : print_RHS RHS Q U flavour = Ok s ->
  exists r p, arguments_of (make_list RHS) Q U false false = Ok r /\ s = text (printer flavour) p /\ p_args p = ["x"; "u"; "params"]%string /\
  (good_names r flavour -> r_q r <> [] -> (2 <= length (r_u r))%nat -> r_params r <> [] ->
   forall val, call p [numbers (map val (r_q r ++ r_v r)); numbers (map val (r_u r)); alone (map (fun s => val (Static s)) (r_params r))]
   = Ok (numbers (map val (r_v r) ++ map (value val) (make_list RHS)))).
Proof.
  rewrite rhs_text_ok. destruct (arguments_of (make_list RHS) Q U false false) as [r|] eqn:Er; cbn [rbind]; intros H; [|discriminate]. injection H as <-.
  exists r, (rhs_program r (named (make_list RHS)) flavour). split; [reflexivity|]. split; [reflexivity|]. split; [reflexivity|].
  intros GN NQ HU NP val. now apply rhs_value_ok with Q U.
Qed.
Theorem exprs_function_ok l Q flavour s : print_exprs l Q flavour = Ok s ->
  exists r p, arguments_of (make_list l) Q U_none false false = Ok r /\ s = text (printer flavour) p /\
  (good_names r flavour -> length (r_u r) <> 1%nat -> forall val,
   let x := map val (r_q r ++ r_v r) in let u := map val (r_u r) in let params := map (fun s => val (Static s)) (r_params r) in
   call p ((match x with [] => [] | _ => [numbers x] end) ++ (match u with [] => [] | _ => [numbers u] end) ++ (match params with [] => [] | _ => [alone params] end))
   = Ok (match make_list l with [e] => V_num (value val e) | _ => numbers (map (value val) (make_list l)) end)).
Proof.
  rewrite exprs_text_ok. destruct (arguments_of (make_list l) Q U_none false false) as [r|] eqn:Er; cbn [rbind]; intros H; [|discriminate]. injection H as <-.
  exists r, (exprs_program r (named (make_list l)) flavour). split; [reflexivity|]. split; [reflexivity|].
  intros GN HU val. exact (exprs_value_ok _ Q _ _ _ Er GN HU).
Qed.

(** ** When the text is not python *)
Theorem rhs_syntax_ok l r flavour : r_v r = [] \/ r_u r = [] \/ r_params r = [] -> forall vals, call (rhs_program r (named l) flavour) vals = Err SyntaxError.
Proof. apply rhs_call_syntax. Qed.

(** ** Coordinates and controls with the usual names *)
Theorem numbered_good l n U r flavour : standard_controls U -> arguments_of l (Q_int n) U false false = Ok r ->
  (forall s, In s (r_params r) -> identifier s = true /\ ~ In s (reserved flavour)) -> good_names r flavour.
Proof.
  intros HU Hr HP. unfold good_names. split.
  - apply (arguments_nodup' _ _ _ _ _ _ Hr); [apply numbered_groups|]. intros; eapply numbered_u; eauto.
  - intros a Ha. unfold CasModel.arguments_of in Hr. destruct (mapm normal l); cbn [rbind] in Hr; [|discriminate].
    destruct (r_groups _ _ _ _ _ _ Hr) as (q & v & a0 & u & Hq & Hu & Eq & Ev & Ea). cbn in Hq. injection Hq as <- <- <-.
    destruct (r_u_incl _ _ _ _ _ _ _ Hr Hu) as [IU _].
    assert (EU : exists m, u = numbered "u" m) by (destruct HU as [->|[m ->]]; cbn in Hu; injection Hu as <-; eauto).
    destruct EU as [m ->].
    assert (G : forall c k b, letter c = true -> In b (numbered (String c "") k) -> exists s, b = Static s /\ identifier s = true /\ ~ In s (reserved flavour)).
    { intros c k b Hc Hb. unfold numbered in Hb. apply in_map_iff in Hb. destruct Hb as (i & <- & _). eexists. split; [reflexivity|].
      split; [apply numbered_identifier; exact Hc|apply numbered_reserved]. }
    rewrite !in_app_iff in Ha. destruct Ha as [Ha|[Ha|[Ha|Ha]]].
    + rewrite Eq in Ha. exact (G "q"%char _ _ eq_refl Ha).
    + rewrite Ev in Ha. exact (G "v"%char _ _ eq_refl Ha).
    + exact (G "u"%char _ _ eq_refl (IU _ Ha)).
    + apply in_map_iff in Ha. destruct Ha as (s & <- & Hs). exists s. split; [reflexivity|]. now apply HP.
Qed.
End Orders.

(** ** Concrete cases *)
Definition V (n : string) : expr := Var (Static n).
(** q_0'' = u_0 + k q_1, q_1'' = u_1 + m *)
Definition two_rhs : list expr := [Plus (V "u0") (Times (V "k") (V "q1")); Plus (V "u1") (V "m")].
Lemma two_arguments : exists r, arguments_of dyns plain two_rhs (Q_int 2) U_none false false = Ok r /\
  r_q r = [Static "q_0"; Static "q_1"] /\ r_v r = [Static "v_0"; Static "v_1"] /\ r_u r = [Static "u_0"; Static "u_1"] /\ r_params r = ["k"; "m"]%string.
Proof. eexists. split; [reflexivity|]. repeat split. Qed.
Lemma two_hypotheses : forall r, arguments_of dyns plain two_rhs (Q_int 2) U_none false false = Ok r ->
  good_names r "np" /\ r_q r <> [] /\ (2 <= length (r_u r))%nat /\ r_params r <> [] /\ length two_rhs = length (r_q r).
Proof.
  intros r Hr. destruct two_arguments as (r' & Hr' & Q & Vs & U & P). rewrite Hr in Hr'. injection Hr' as <-. split; [|rewrite Q, U, P; repeat split; try discriminate; cbn; lia].
  apply (numbered_good dyns plain two_rhs 2 U_none r "np" (or_introl eq_refl) Hr). rewrite P. intros s [<-|[<-|[]]]; (split; [reflexivity|]); cbn; intuition discriminate.
Qed.
Lemma two_text doprint str : print_funcs_RHS dyns plain doprint str (Several two_rhs) (Q_int 2) U_none "numpy" =
  Ok ("def F(x, u, params):" ++ nl ++ "    q_0, q_1, v_0, v_1 = unpack(x)" ++ nl ++ "    u_0, u_1 = unpack(u)" ++ nl ++ "    k, m = params" ++ nl ++
      "    result = [v_0, v_1,]" ++ nl ++
      "    result.append(" ++ doprint (Plus (V "u_0") (Times (V "k") (V "q_1"))) ++ ")" ++ nl ++
      "    result.append(" ++ doprint (Plus (V "u_1") (V "m")) ++ ")" ++ nl ++ nl ++ "    return result" ++ nl)%string.
Proof. vm_compute. fold append. repeat (progress cbn [append] || rewrite <- sapp_assoc). reflexivity. Qed.

(** One control: it takes the list. *)
Definition one_rhs : list expr := [V "u_0"; Times (V "m") (V "q_0")].
Lemma one_control : exists r, arguments_of dyns plain one_rhs (Q_int 2) U_none false false = Ok r /\ good_names r "np" /\ r_u r = [Static "u_0"] /\
  forall q0 q1 v0 v1 u0 m,
  call (rhs_program r (map (rename called) one_rhs) "np") [numbers [q0; q1; v0; v1]; numbers [u0]; V_num m] =
    Ok (V_list [V_num v0; V_num v1; V_list [V_num u0]; V_num (m * q0)]) /\
  call (rhs_program r (map (rename called) one_rhs) "np") [numbers [q0; q1; v0; v1]; V_num u0; V_num m] =
    Ok (V_list [V_num v0; V_num v1; V_list [V_num u0]; V_num (m * q0)]).
Proof.
  assert (E : exists r, arguments_of dyns plain one_rhs (Q_int 2) U_none false false = Ok r /\
    r_q r = [Static "q_0"; Static "q_1"] /\ r_v r = [Static "v_0"; Static "v_1"] /\ r_u r = [Static "u_0"] /\ r_params r = ["m"%string]).
  { eexists. split; [reflexivity|]. repeat split. }
  destruct E as (r & Hr & Q & Vs & U & P). exists r. split; [exact Hr|]. split.
  { apply (numbered_good dyns plain one_rhs 2 U_none r "np" (or_introl eq_refl) Hr). rewrite P. intros s [<-|[]]. split; [reflexivity|]. cbn; intuition discriminate. }
  split; [exact U|]. intros. unfold rhs_program. rewrite Q, Vs, U, P. split; reflexivity.
Qed.
(** Second-order form of the state: velocities twice. *)
Definition state_rhs : list expr := [V "v_0"; Plus (V "u_0") (Times (V "k") (V "u_1"))].
Lemma state_twice : exists r, arguments_of dyns plain state_rhs (Q_int 1) U_none false false = Ok r /\ good_names r "np" /\ r_q r = [Static "q_0"] /\
  forall q0 v0 u0 u1 k, call (rhs_program r (map (rename called) state_rhs) "np") [numbers [q0; v0]; numbers [u0; u1]; V_num k] = Ok (numbers [v0; v0; u0 + k * u1]).
Proof.
  assert (E : exists r, arguments_of dyns plain state_rhs (Q_int 1) U_none false false = Ok r /\
    r_q r = [Static "q_0"] /\ r_v r = [Static "v_0"] /\ r_u r = [Static "u_0"; Static "u_1"] /\ r_params r = ["k"%string]).
  { eexists. split; [reflexivity|]. repeat split. }
  destruct E as (r & Hr & Q & Vs & U & P). exists r. split; [exact Hr|]. split.
  { apply (numbered_good dyns plain state_rhs 1 U_none r "np" (or_introl eq_refl) Hr). rewrite P. intros s [<-|[]]. split; [reflexivity|]. cbn; intuition discriminate. }
  split; [exact Q|]. intros. unfold rhs_program. rewrite Q, Vs, U, P. reflexivity.
Qed.
(** A parameter called result is lost. *)
Definition result_rhs : list expr := [Plus (V "u_0") (Times (V "result") (V "u_1"))].
Lemma result_lost : exists r, arguments_of dyns plain result_rhs (Q_int 1) U_none false false = Ok r /\ r_q r = [Static "q_0"] /\
  r_u r = [Static "u_0"; Static "u_1"] /\ r_params r = ["result"%string] /\
  forall q0 v0 u0 u1 k, call (rhs_program r (map (rename called) result_rhs) "np") [numbers [q0; v0]; numbers [u0; u1]; V_num k] = Err TypeError.
Proof.
  assert (E : exists r, arguments_of dyns plain result_rhs (Q_int 1) U_none false false = Ok r /\
    r_q r = [Static "q_0"] /\ r_v r = [Static "v_0"] /\ r_u r = [Static "u_0"; Static "u_1"] /\ r_params r = ["result"%string]).
  { eexists. split; [reflexivity|]. repeat split. }
  destruct E as (r & Hr & Q & Vs & U & P). exists r. split; [exact Hr|]. split; [exact Q|]. split; [exact U|]. split; [exact P|].
  intros. unfold rhs_program. rewrite Q, Vs, U, P. reflexivity.
Qed.
(** print_funcs: one expression and no coordinates. *)
Lemma param_text doprint str : print_funcs dyns plain doprint str (Single (Plus (V "k") (V "m"))) (Q_int 0) "numpy" =
  Ok ("def F(params, ):" ++ nl ++ "    k, m = params" ++ nl ++ "    result = " ++ doprint (Plus (V "k") (V "m")) ++ nl ++ nl ++ "    return result" ++ nl)%string.
Proof. vm_compute. fold append. repeat (progress cbn [append] || rewrite <- sapp_assoc). reflexivity. Qed.
Lemma param_hypotheses : exists r, arguments_of dyns plain [Plus (V "k") (V "m")] (Q_int 0) U_none false false = Ok r /\ good_names r "np" /\ length (r_u r) <> 1%nat /\
  r_params r = ["k"; "m"]%string.
Proof.
  assert (E : exists r, arguments_of dyns plain [Plus (V "k") (V "m")] (Q_int 0) U_none false false = Ok r /\ r_u r = [] /\ r_params r = ["k"; "m"]%string).
  { eexists. split; [reflexivity|]. split; reflexivity. }
  destruct E as (r & Hr & U & P). exists r. split; [exact Hr|]. split; [|split; [rewrite U; discriminate|exact P]].
  apply (numbered_good dyns plain _ 0 U_none r "np" (or_introl eq_refl) Hr). rewrite P. intros s [<-|[<-|[]]]; (split; [reflexivity|]); cbn; intuition discriminate.
Qed.
(** print_funcs: one control is again the list. *)
Lemma one_control_exprs : exists r, arguments_of dyns plain [V "u_0"] (Q_int 0) U_none false false = Ok r /\ good_names r "np" /\ r_u r = [Static "u_0"] /\
  forall u0, call (exprs_program r [V "u_0"] "np") [numbers [u0]] = Ok (V_list [V_num u0]).
Proof.
  assert (E : exists r, arguments_of dyns plain [V "u_0"] (Q_int 0) U_none false false = Ok r /\ r_q r = [] /\ r_v r = [] /\ r_u r = [Static "u_0"] /\ r_params r = []).
  { eexists. split; [reflexivity|]. repeat split. }
  destruct E as (r & Hr & Q & Vs & U & P). exists r. split; [exact Hr|]. split; [|split; [exact U|]].
  - apply (numbered_good dyns plain _ 0 U_none r "np" (or_introl eq_refl) Hr). rewrite P. intros s [].
  - intros. unfold exprs_program. rewrite Q, Vs, U, P. reflexivity.
Qed.
(** ** The same, with the texts *)
Section Texts.
Variables doprint str : expr -> string.
Notation printer := (printer_function doprint str).
Notation print_RHS := (print_funcs_RHS dyns plain doprint str).
Theorem one_control_text : exists p, print_RHS (Several one_rhs) (Q_int 2) U_none "np" = Ok (text (printer "np") p) /\
  forall q0 q1 v0 v1 u0 m, call p [numbers [q0; q1; v0; v1]; numbers [u0]; V_num m] = Ok (V_list [V_num v0; V_num v1; V_list [V_num u0]; V_num (m * q0)]) /\
  call p [numbers [q0; q1; v0; v1]; V_num u0; V_num m] = Ok (V_list [V_num v0; V_num v1; V_list [V_num u0]; V_num (m * q0)]).
Proof.
  destruct one_control as (r & Hr & _ & _ & H). exists (rhs_program r (map (rename called) one_rhs) "np"). split; [|exact H].
  rewrite (rhs_text_ok dyns plain orders_ok). cbn [make_list]. rewrite Hr. reflexivity.
Qed.
Theorem state_text : exists p, print_RHS (Several state_rhs) (Q_int 1) U_none "np" = Ok (text (printer "np") p) /\
  forall q0 v0 u0 u1 k, call p [numbers [q0; v0]; numbers [u0; u1]; V_num k] = Ok (numbers [v0; v0; u0 + k * u1]).
Proof.
  destruct state_twice as (r & Hr & _ & _ & H). exists (rhs_program r (map (rename called) state_rhs) "np"). split; [|exact H].
  rewrite (rhs_text_ok dyns plain orders_ok). cbn [make_list]. rewrite Hr. reflexivity.
Qed.
Theorem result_text : exists p, print_RHS (Several result_rhs) (Q_int 1) U_none "np" = Ok (text (printer "np") p) /\
  forall q0 v0 u0 u1 k, call p [numbers [q0; v0]; numbers [u0; u1]; V_num k] = Err TypeError.
Proof.
  destruct result_lost as (r & Hr & _ & _ & _ & H). exists (rhs_program r (map (rename called) result_rhs) "np"). split; [|exact H].
  rewrite (rhs_text_ok dyns plain orders_ok). cbn [make_list]. rewrite Hr. reflexivity.
Qed.
Theorem one_control_exprs_text : exists p, print_funcs dyns plain doprint str (Single (V "u_0")) (Q_int 0) "np" = Ok (text (printer "np") p) /\
  p_args p = ["u"%string] /\ forall u0, call p [numbers [u0]] = Ok (V_list [V_num u0]).
Proof.
  destruct one_control_exprs as (r & Hr & _ & U & H). exists (exprs_program r [V "u_0"] "np"). split.
  - rewrite (exprs_text_ok dyns plain orders_ok). cbn [make_list]. rewrite Hr. reflexivity.
  - split; [|exact H]. assert (E : r_q r = [] /\ r_v r = [] /\ r_params r = []) by (injection Hr as <-; repeat split).
    destruct E as (E1 & E2 & E3). unfold exprs_program. rewrite E1, E2, E3, U. reflexivity.
Qed.
End Texts.
(** Without controls, parameters or coordinates. *)
Theorem rhs_text_syntax dyn_order sym_order : iterates dyn_order sym_order -> forall doprint str RHS Q U flavour r s,
  print_funcs_RHS dyn_order sym_order doprint str RHS Q U flavour = Ok s -> arguments_of dyn_order sym_order (make_list RHS) Q U false false = Ok r ->
  r_v r = [] \/ r_u r = [] \/ r_params r = [] ->
  exists p, s = text (printer_function doprint str flavour) p /\ forall vals, call p vals = Err SyntaxError.
Proof.
  intros IT doprint str RHS Q U flavour r s Hs Hr H. rewrite (rhs_text_ok _ _ IT), Hr in Hs. cbn [rbind] in Hs. injection Hs as <-.
  eexists. split; [reflexivity|]. now apply rhs_syntax_ok.
Qed.
(** The pendulum: no parameters but g, no control. *)
Example no_control : exists r s, print_funcs_RHS dyns plain (fun _ => "e"%string) (fun _ => "e"%string) (Several [Times (V "g") (V "q_0")]) (Q_int 1) U_none "np" = Ok s /\
  arguments_of dyns plain [Times (V "g") (V "q_0")] (Q_int 1) U_none false false = Ok r /\ r_u r = [] /\
  s = ("def F(x, u, params):" ++ nl ++ "    q_0, v_0 = unpack(x)" ++ nl ++ "     = unpack(u)" ++ nl ++ "    g = params" ++ nl ++ "    result = [v_0,]" ++ nl ++
       "    result.append(e)" ++ nl ++ nl ++ "    return result" ++ nl)%string.
Proof. do 2 eexists. repeat split. Qed.
Theorem rhs_text_numpy dyn_order sym_order : iterates dyn_order sym_order -> forall doprint str l Q U r flavour F s x u p,
  arguments_of dyn_order sym_order l Q U false false = Ok r -> good_names r flavour ->
  r_q r <> [] -> (2 <= length (r_u r))%nat -> r_params r <> [] -> length l = length (r_q r) ->
  RHS2numpy dyn_order sym_order l Q U "x" = Ok F -> print_funcs_RHS dyn_order sym_order doprint str (Several l) Q U flavour = Ok s ->
  length x = (2 * length (r_q r))%nat -> length u = length (r_u r) -> length p = length (r_params r) ->
  exists prog y, s = text (printer_function doprint str flavour) prog /\ F [NumpyModel.A1 x; NumpyModel.A1 u; NumpyModel.A1 p] = Ok (NumpyModel.A1 y) /\
  call prog [numbers x; numbers u; alone p] = Ok (numbers y).
Proof.
  intros IT doprint str l Q U r flavour F s x u p Hr GN NQ HU NP LL HF Hs Lx Lu Lp. rewrite (rhs_text_ok _ _ IT) in Hs. cbn [make_list] in Hs. rewrite Hr in Hs.
  cbn [rbind] in Hs. injection Hs as <-. destruct (rhs_numpy_ok _ _ IT l Q U r flavour F x u p) as (y & E1 & E2); auto.
  eexists. exists y. split; [reflexivity|]. split; [exact E1|exact E2].
Qed.
