(** Proofs about solving. *)
From Coq Require Import String Ascii ZArith Reals List Lra Lia.
From Verif Require Import Prelude PwInterpModel DispatchModel DispatchProofs SolveModel SolveSpec.
Import ListNotations.
Open Scope string_scope.
Open Scope list_scope.
Open Scope R_scope.


Section SolveProofs.
Context {E V Sol St : Type}.
Variable opti_solve : St -> St * R * Res Sol.
Variable sol_value : Sol -> E -> Res V.
Variable opti_stats : St -> V.
Variable iter_count : V -> Res V.
Notation problem := (solve_problem E V Sol St).
Notation setup := (set_up E St).
Notation dict := (dict V).
Notation entry := (entry V).
Notation dget := (dget V).
Notation dput := (dput V).
Notation run_writes := (run_writes V).
Notation simple_solve := (simple_solve E V Sol St opti_solve sol_value opti_stats iter_count).
Notation chrono_solve := (chrono_solve E V Sol St opti_solve sol_value opti_stats iter_count).
Notation call_solve := (call_solve E V Sol St opti_solve sol_value opti_stats iter_count).
Notation call_all := (call_all E V Sol St opti_solve sol_value opti_stats iter_count).
Notation finish := (finish E V Sol St sol_value opti_stats iter_count).
Notation save_writes := (save_writes E V Sol St sol_value).
Notation solve_times := (solve_times Sol St opti_solve).
Notation solved := (solved opti_solve).
Notation fails := (fails opti_solve).
Notation has_values := (has_values sol_value).
Notation reports := (reports sol_value opti_stats iter_count).

(** ** Dictionaries *)
Lemma dget_dput : forall k v d k', dget k' (dput k v d) = if String.eqb k' k then Some v else dget k' d.
Proof.
  intros k v d k'. induction d as [|[k0 v0] d IH]; cbn; [reflexivity|].
  destruct (String.eqb k k0) eqn:E0; cbn.
  - apply String.eqb_eq in E0; subst k0. destruct (String.eqb k' k); reflexivity.
  - rewrite IH. destruct (String.eqb k' k0) eqn:E1; [|reflexivity].
    apply String.eqb_eq in E1; subst k0. rewrite String.eqb_sym, E0. reflexivity.
Qed.

Definition puts (l : list (string * entry)) (d : dict) : dict := fold_left (fun d kv => dput (fst kv) (snd kv) d) l d.
Definition ok_write (w : string * Res entry) (kv : string * entry) : Prop := fst w = fst kv /\ snd w = Ok (snd kv).

Lemma run_ok : forall ws l d, Forall2 ok_write ws l -> run_writes ws d = (puts l d, Ok tt).
Proof.
  intros ws l d H. revert d. induction H as [|[k r] [k' v] ws l [Hk Hv] H IH]; intros d; [reflexivity|].
  cbn in Hk, Hv. subst k' r. cbn. apply IH.
Qed.

Lemma puts_get : forall l d k, (forall kv, In kv l -> fst kv = k -> False) -> dget k (puts l d) = dget k d.
Proof.
  induction l as [|[k0 v0] l IH]; intros d k H; [reflexivity|].
  cbn. unfold puts in IH. rewrite IH by (intros kv Hi He; apply (H kv); [right; exact Hi|exact He]).
  rewrite dget_dput. destruct (String.eqb k k0) eqn:E0; [|reflexivity].
  apply String.eqb_eq in E0. exfalso. apply (H (k0, v0)); [left; reflexivity|symmetry; exact E0].
Qed.
Lemma puts_in : forall l d k v, (forall v', In (k, v') l -> v' = v) -> In (k, v) l -> dget k (puts l d) = Some v.
Proof.
  induction l as [|[k0 v0] l IH]; intros d k v Hf Hi; [destruct Hi|].
  cbn. change (dget k (puts l (dput k0 v0 d)) = Some v).
  destruct (in_dec (fun a b => string_dec a b) k (map fst l)) as [Hin|Hout].
  - apply in_map_iff in Hin. destruct Hin as [[k1 v1] [Hk1 Hi1]]. cbn in Hk1; subst k1.
    apply IH; [intros v' Hv'; apply Hf; right; exact Hv'|]. rewrite <- (Hf v1); [exact Hi1|right; exact Hi1].
  - destruct Hi as [Hi|Hi]; [injection Hi as -> ->|exfalso; apply Hout; apply in_map_iff; exists (k, v); split; [reflexivity|exact Hi]].
    rewrite puts_get, dget_dput, String.eqb_refl; [reflexivity|].
    intros kv Hkv He. apply Hout. apply in_map_iff. exists kv. split; assumption.
Qed.
Lemma puts_key : forall l d k v, dget k (puts l d) = Some v -> In k (map fst l) \/ dget k d = Some v.
Proof.
  intros l d k v H. destruct (in_dec (fun a b => string_dec a b) k (map fst l)) as [Hin|Hout]; [left; exact Hin|right].
  rewrite puts_get in H; [exact H|]. intros kv Hkv He. apply Hout. apply in_map_iff. exists kv. split; assumption.
Qed.
Lemma functional : forall (l U : list (string * entry)) k v,
  incl l U -> NoDup (map fst U) -> In (k, v) l -> forall v', In (k, v') l -> v' = v.
Proof.
  intros l U k v Hs Hn Hv v' Hv'. apply Hs in Hv, Hv'. clear l Hs.
  induction U as [|[k0 v0] U IH]; [destruct Hv|]. inversion Hn as [|? ? Hni Hn']; subst.
  destruct Hv as [Hv|Hv], Hv' as [Hv'|Hv'].
  - congruence.
  - injection Hv as -> ->. exfalso. apply Hni. apply in_map_iff. exists (k, v'). split; [reflexivity|exact Hv'].
  - injection Hv' as -> ->. exfalso. apply Hni. apply in_map_iff. exists (k, v). split; [reflexivity|exact Hv].
  - apply IH; assumption.
Qed.

(** ** The writes *)
Lemma arrs_writes : forall sol (arrs : list (string * E)), (forall k a, In (k, a) arrs -> exists v, sol_value sol a = Ok v) ->
  exists l, Forall2 ok_write (map (fun ka => (fst ka, do v <- sol_value sol (snd ka); Ok (E_val V v))) arrs) l /\
    map fst l = map fst arrs /\
    forall k a, In (k, a) arrs -> exists v, sol_value sol a = Ok v /\ In (k, E_val V v) l.
Proof.
  intros sol arrs H. induction arrs as [|[k a] arrs IH]; [exists []; split; [constructor|split; [reflexivity|intros k a []]]|].
  destruct IH as (l & Hl & Hm & Hi); [intros k' a' Hin; apply (H k' a'); right; exact Hin|].
  destruct (H k a) as [v Hv]; [left; reflexivity|].
  exists ((k, E_val V v) :: l). split; [|split].
  - cbn [map]. constructor; [|exact Hl]. split; [reflexivity|]. cbn [fst snd]. rewrite Hv. reflexivity.
  - cbn. rewrite Hm. reflexivity.
  - intros k' a' [Heq|Hin].
    + injection Heq as <- <-. exists v. split; [exact Hv|left; reflexivity].
    + destruct (Hi k' a' Hin) as [v' [Hv' Hin']]. exists v'. split; [exact Hv'|right; exact Hin'].
Qed.
Lemma mapm_values : forall sol l, (forall a, In a l -> exists v, sol_value sol a = Ok v) ->
  exists vs, mapm (sol_value sol) l = Ok vs /\ Forall2 (fun a v => sol_value sol a = Ok v) l vs.
Proof.
  intros sol l H. induction l as [|a l IH]; [exists []; split; [reflexivity|constructor]|].
  destruct IH as (vs & Hm & Hf); [intros a' Ha'; apply H; right; exact Ha'|].
  destruct (H a) as [v Hv]; [left; reflexivity|].
  exists (v :: vs). split; [|constructor; assumption]. cbn. rewrite Hv. cbn. rewrite Hm. reflexivity.
Qed.
Lemma lists_writes : forall sol (ls : list (string * list E)),
  (forall k l a, In (k, l) ls -> In a l -> exists v, sol_value sol a = Ok v) ->
  exists l, Forall2 ok_write (map (fun kl => (String.append (fst kl) "_list", do l <- mapm (sol_value sol) (snd kl); Ok (E_list V l))) ls) l /\
    map fst l = map (fun kl => String.append (fst kl) "_list") ls /\
    forall k l0, In (k, l0) ls -> exists vs, Forall2 (fun a v => sol_value sol a = Ok v) l0 vs /\
                                   In (String.append k "_list", E_list V vs) l.
Proof.
  intros sol ls H. induction ls as [|[k a] ls IH]; [exists []; split; [constructor|split; [reflexivity|intros k a []]]|].
  destruct IH as (l & Hl & Hm & Hi); [intros k' l' a' Hin; apply (H k' l' a'); right; exact Hin|].
  destruct (mapm_values sol a) as (vs & Hvs & Hf); [intros a' Ha'; apply (H k a a'); [left; reflexivity|exact Ha']|].
  exists ((String.append k "_list", E_list V vs) :: l). split; [|split].
  - cbn [map]. constructor; [|exact Hl]. split; [reflexivity|]. cbn [fst snd]. rewrite Hvs. reflexivity.
  - cbn [map fst snd]. rewrite Hm. reflexivity.
  - intros k' a' [Heq|Hin].
    + injection Heq as <- <-. exists vs. split; [exact Hf|left; reflexivity].
    + destruct (Hi k' a' Hin) as [v' [Hv' Hin']]. exists v'. split; [exact Hv'|right; exact Hin'].
Qed.

(** The entries of the results that do not come from arrays and lists, for
    each kind of mesh. *)
Definition scheme_entry (mode scheme : string) : string :=
  if String.eqb mode "bottom-up pseudospectral" then String.append "BU_" scheme
  else if String.eqb mode "top-down pseudospectral" then String.append "TD_" scheme
  else scheme.
Definition mesh_entries (su : setup) : list (string * entry) :=
  match su_mesh _ _ su with
  | Steps N => [("N", E_nat V N)]
  | Points n => [("n_coll", E_nat V n)]
  | Segments h ps n m _ =>
      [("h_arr", E_vec V h); ("point_structure", E_nats V ps); ("n_segments", E_nat V n); ("n_coll_total", E_nat V m)]
  end.
Definition head_entries (p : problem) (su : setup) : list (string * entry) :=
  [("scheme_mode", E_str V (sp_mode _ _ _ _ p)); ("n_q", E_nat V (su_n_q _ _ su)); ("n_u", E_nat V (su_n_u _ _ su));
   ("solve_order", E_nat V (su_order _ _ su)); ("params", E_val V (sp_params _ _ _ _ p))].

Lemma ok_const : forall (l : list (string * entry)), Forall2 ok_write (map (fun kv => (fst kv, Ok (snd kv))) l) l.
Proof. induction l as [|kv l IH]; cbn; constructor; [split; reflexivity|exact IH]. Qed.

Lemma writes : forall (p : problem) (su : setup) sol, matches (sp_mode _ _ _ _ p) su -> has_values p su sol ->
  exists lists arrs,
    Forall2 ok_write (save_writes p su sol)
      (head_entries p su ++ mesh_entries su ++ lists ++ [("scheme", E_str V (scheme_entry (sp_mode _ _ _ _ p) (sp_scheme _ _ _ _ p)))] ++ arrs) /\
    map fst lists = map (fun kl => String.append (fst kl) "_list") (lists_of su) /\
    map fst arrs = map fst (su_arrs _ _ su) /\
    (forall k l0, In (k, l0) (lists_of su) -> exists vs, Forall2 (fun a v => sol_value sol a = Ok v) l0 vs /\
                                   In (String.append k "_list", E_list V vs) lists) /\
    (forall k a, In (k, a) (su_arrs _ _ su) -> exists v, sol_value sol a = Ok v /\ In (k, E_val V v) arrs).
Proof.
  intros p su sol Hm (Ha & Hl & _).
  destruct (arrs_writes sol (su_arrs _ _ su) Ha) as (arrs & Ha1 & Ha2 & Ha3).
  destruct (lists_writes sol (lists_of su) Hl) as (lists & Hl1 & Hl2 & Hl3).
  exists lists, arrs. split; [|repeat split; assumption].
  unfold SolveModel.save_writes, head_entries, mesh_entries, matches in *.
  unfold lists_of in Hl1, Hl2. clear Ha Hl Hl3 Ha3. unfold scheme_entry.
  destruct (su_mesh _ _ su) as [N|n|h ps n m ls].
  - rewrite Hm. cbn [map] in Hl1, Hl2. destruct lists; [|discriminate]. clear Hl1 Hl2. cbn -[map String.append].
    repeat (constructor; [split; reflexivity|]). exact Ha1.
  - cbn [map] in Hl1, Hl2. destruct lists; [|discriminate]. clear Hl1 Hl2.
    destruct Hm as [Hm|[Hm|[Hm|[]]]]; rewrite <- Hm; cbn -[map String.append];
    (repeat (constructor; [split; reflexivity|])); exact Ha1.
  - destruct Hm as [mm Hm]. rewrite Hm. cbn [String.append].
    cbn -[map String.append app head3]. 
    replace (head3 _ =? "ph ")%string with true by (unfold head3; cbn; destruct mm; reflexivity).
    cbn [app]. do 9 (constructor; [split; reflexivity|]).
    rewrite <- app_assoc. apply Forall2_app; [exact Hl1|]. cbn [app]. constructor; [split; reflexivity|exact Ha1].
Qed.

Lemma puts_ext : forall l d d' k, dget k d = dget k d' -> dget k (puts l d) = dget k (puts l d').
Proof.
  induction l as [|[k0 v0] l IH]; intros d d' k H; [exact H|].
  cbn. apply IH. rewrite !dget_dput, H. reflexivity.
Qed.

Lemma NoDup_app_l {A} : forall (a b : list A), NoDup (a ++ b) -> NoDup a.
Proof. intros a b H. induction a as [|x a IH]; [constructor|]. cbn in H. inversion H; subst. constructor; [intro; apply H2; apply in_or_app; left; assumption|apply IH; assumption]. Qed.
Lemma NoDup_app_r {A} : forall (a b : list A), NoDup (a ++ b) -> NoDup b.
Proof. intros a b H. induction a as [|x a IH]; [exact H|]. cbn in H. inversion H; subst. apply IH; assumption. Qed.
Lemma NoDup_app_no {A} : forall (a b : list A) x, NoDup (a ++ b) -> In x a -> In x b -> False.
Proof.
  intros a b x H. induction a as [|y a IH]; [intros []|]. cbn in H. inversion H; subst. intros [->|Ha] Hb.
  - apply H2. apply in_or_app. right; exact Hb.
  - apply IH; assumption.
Qed.
Lemma NoDup_app_of {A} : forall (a b : list A), NoDup a -> NoDup b -> (forall x, In x a -> In x b -> False) -> NoDup (a ++ b).
Proof.
  intros a b Ha Hb H. induction Ha as [|x a Hx Ha IH]; [exact Hb|]. cbn. constructor.
  - intro Hi. apply in_app_or in Hi. destruct Hi as [Hi|Hi]; [exact (Hx Hi)|apply (H x); [left; reflexivity|exact Hi]].
  - apply IH. intros y Hy. apply H. right; exact Hy.
Qed.

Definition cost_entry (p : problem) (sol : Sol) : Res entry :=
  match sp_cost _ _ _ _ p with None => Ok (E_none V) | Some c => do v <- sol_value sol c; Ok (E_val V v) end.

Lemma lit_names : forall (p : problem) (su : setup), 
  NoDup (map fst (head_entries p su ++ mesh_entries su ++ [("scheme", E_str V "")])) /\
  forall x, In x (map fst (head_entries p su ++ mesh_entries su ++ [("scheme", E_str V "")])) -> In x info_names.
Proof.
  intros p su. unfold head_entries, mesh_entries. destruct (su_mesh _ _ su); cbn; split.
  all: try (intros x Hx; repeat (destruct Hx as [Hx|Hx]; [subst x; auto 20|]); destruct Hx).
  all: repeat (constructor; [cbn; intro Hc; repeat (destruct Hc as [Hc|Hc]; [discriminate|]); exact Hc|]); constructor.
Qed.

Lemma finish_ok : forall (p : problem) (su : setup) cpudt sol,
  matches (sp_mode _ _ _ _ p) su -> well_named su -> has_values p su sol ->
  (exists n, iter_count (opti_stats (su_opti _ _ su)) = Ok n) ->
  exists r, finish su cpudt sol p = (with_results _ _ _ _ r (with_sol _ _ _ _ sol p), Ok tt) /\
    reports p su (su_opti _ _ su) cpudt sol r /\
    dget "scheme" r = Some (E_str V (scheme_entry (sp_mode _ _ _ _ p) (sp_scheme _ _ _ _ p))) /\
    (forall cpudt' q su', sp_mode _ _ _ _ q = sp_mode _ _ _ _ p -> sp_scheme _ _ _ _ q = sp_scheme _ _ _ _ p ->
       sp_params _ _ _ _ q = sp_params _ _ _ _ p -> sp_cost _ _ _ _ q = sp_cost _ _ _ _ p ->
       su' = with_opti _ _ (su_opti _ _ su') su -> opti_stats (su_opti _ _ su') = opti_stats (su_opti _ _ su) ->
       exists r', finish su' cpudt' sol q = (with_results _ _ _ _ r' (with_sol _ _ _ _ sol q), Ok tt) /\
         forall k, k <> "cpudt" -> dget k r' = dget k r).
Proof.
  intros p su cpudt sol Hm Hw Hv [it Hit].
  destruct (writes (with_sol _ _ _ _ sol p) su sol) as (lists & arrs & Hws & Hl & Ha & Hl' & Ha'); [exact Hm|exact Hv|].
  set (L := head_entries _ su ++ _) in Hws.
  destruct (lit_names p su) as [Hn1 Hn2].
  assert (Hcost : exists c, cost_entry p sol = Ok c).
  { unfold cost_entry. destruct Hv as (_ & _ & Hc). destruct (sp_cost _ _ _ _ p) as [c|]; [|exists (E_none V); reflexivity].
    destruct (Hc c eq_refl) as [v Hv']. rewrite Hv'. eexists; reflexivity. }
  destruct Hcost as [cost Hcost].
  set (d0 := fun t : entry => [("cpudt", t); ("iter_count", E_val V it); ("cost", cost); ("opti_stats", E_val V (opti_stats (su_opti _ _ su)))]).
  assert (Hfin : forall t, finish su t sol p = (with_results _ _ _ _ (puts L (d0 t)) (with_sol _ _ _ _ sol p), Ok tt)).
  { intros t. unfold SolveModel.finish. cbn [sp_cost with_sol]. fold (cost_entry p sol). rewrite Hcost, Hit.
    rewrite (run_ok _ _ _ Hws). reflexivity. }
  exists (puts L (d0 cpudt)). split; [apply Hfin|].
  (* the names are distinct *)
  set (U := (head_entries p su ++ mesh_entries su ++ [("scheme", E_str V (scheme_entry (sp_mode _ _ _ _ p) (sp_scheme _ _ _ _ p)))]) ++ lists ++ arrs).
  assert (HU : incl L U).
  { intros kv Hkv. unfold L in Hkv. unfold U. 
    apply in_app_or in Hkv. destruct Hkv as [Hkv|Hkv]; [apply in_or_app; left; apply in_or_app; left; exact Hkv|].
    apply in_app_or in Hkv. destruct Hkv as [Hkv|Hkv]; [apply in_or_app; left; apply in_or_app; right; apply in_or_app; left; exact Hkv|].
    apply in_app_or in Hkv. destruct Hkv as [Hkv|Hkv]; [apply in_or_app; right; apply in_or_app; left; exact Hkv|].
    apply in_app_or in Hkv. destruct Hkv as [Hkv|Hkv]; [apply in_or_app; left; apply in_or_app; right; apply in_or_app; right; exact Hkv|].
    apply in_or_app; right; apply in_or_app; right; exact Hkv. }
  assert (HL : incl U L).
  { intros kv Hkv. unfold L. unfold U in Hkv. 
    apply in_app_or in Hkv. destruct Hkv as [Hkv|Hkv].
    - apply in_app_or in Hkv. destruct Hkv as [Hkv|Hkv]; [apply in_or_app; left; exact Hkv|apply in_or_app; right].
      apply in_app_or in Hkv. destruct Hkv as [Hkv|Hkv]; [apply in_or_app; left; exact Hkv|apply in_or_app; right].
      apply in_or_app; right; apply in_or_app; left; exact Hkv.
    - apply in_or_app; right; apply in_or_app; right. 
      apply in_app_or in Hkv. destruct Hkv as [Hkv|Hkv]; [apply in_or_app; left; exact Hkv|apply in_or_app; right; apply in_or_app; right; exact Hkv]. }
  assert (HkU : map fst U = map fst (head_entries p su ++ mesh_entries su ++ [("scheme", E_str V "")]) ++
                map (fun kl => String.append (fst kl) "_list") (lists_of su) ++ map fst (su_arrs _ _ su)).
  { unfold U. rewrite !map_app, Hl, Ha. reflexivity. }
  assert (HN : NoDup (map fst U)).
  { rewrite HkU. apply NoDup_app_of; [exact Hn1|exact (NoDup_app_r _ _ Hw)|].
    intros x Hx Hx'. exact (NoDup_app_no _ _ x Hw (Hn2 x Hx) Hx'). }
  assert (Hget : forall k v, In (k, v) U -> forall t, dget k (puts L (d0 t)) = Some v).
  { intros k v Hin t. apply puts_in; [|apply HL; exact Hin]. apply (functional L U k v HU HN). apply HL; exact Hin. }
  assert (Hfree : forall k, In k ["cpudt"; "iter_count"; "cost"; "opti_stats"] -> forall t, dget k (puts L (d0 t)) = dget k (d0 t)).
  { intros k Hk t. apply puts_get. intros kv Hkv He. apply HU in Hkv. 
    assert (Hi : In k (map fst U)) by (apply in_map_iff; exists kv; split; assumption).
    rewrite HkU in Hi. apply in_app_or in Hi. destruct Hi as [Hi|Hi].
    - clear - Hi Hk. unfold head_entries, mesh_entries in Hi. 
      destruct Hk as [<-|[<-|[<-|[<-|[]]]]]; destruct (su_mesh _ _ su); cbn in Hi;
        repeat (destruct Hi as [Hi|Hi]; [discriminate|]); exact Hi.
    - apply (NoDup_app_no _ _ k Hw); [|exact Hi]. destruct Hk as [<-|[<-|[<-|[<-|[]]]]]; cbn; auto 20. }
  assert (Hhead : forall kv, In kv (head_entries p su) -> In kv U) by (intros kv H; apply in_or_app; left; apply in_or_app; left; exact H).
  assert (Hmesh : forall kv, In kv (mesh_entries su) -> In kv U) by (intros kv H; apply in_or_app; left; apply in_or_app; right; apply in_or_app; left; exact H).
  split; [|split].
  - constructor.
    + intros k a Hin. destruct (Ha' k a Hin) as [v [Hv1 Hv2]]. exists v. split; [exact Hv1|]. apply Hget.
      apply in_or_app; right; apply in_or_app; right; exact Hv2.
    + intros k l Hin. destruct (Hl' k l Hin) as [vs [Hv1 Hv2]]. exists vs. split; [exact Hv1|]. apply Hget.
      apply in_or_app; right; apply in_or_app; left; exact Hv2.
    + unfold cost_entry in Hcost. rewrite (Hfree "cost") by (cbn; auto 20). 
      destruct (sp_cost _ _ _ _ p) as [c|]; [|injection Hcost as <-; reflexivity].
      destruct (sol_value sol c) as [v|]; [|discriminate]. cbn in Hcost. injection Hcost as <-. exists v. split; reflexivity.
    + apply Hfree; cbn; auto 20.
    + apply Hfree; cbn; auto 20.
    + exists it. split; [exact Hit|]. apply Hfree; cbn; auto 20.
    + apply Hget, Hhead. cbn; auto 20.
    + apply Hget, Hhead. cbn; auto 20.
    + apply Hget, Hhead. cbn; auto 20.
    + apply Hget, Hhead. cbn; auto 20.
    + apply Hget, Hhead. cbn; auto 20.
    + unfold mesh_entries in Hmesh. destruct (su_mesh _ _ su); [| |split; [|split; [|split]]]; apply Hget, Hmesh; cbn; auto 20.
    + intros k v Hk. apply puts_key in Hk. destruct Hk as [Hk|Hk].
      * assert (Hk' : In k (map fst U)) by (apply in_map_iff in Hk; destruct Hk as (kv & He & Hk); apply in_map_iff; exists kv; split; [exact He|apply HU; exact Hk]).
        rewrite HkU in Hk'. apply in_app_or in Hk'. destruct Hk' as [Hk'|Hk']; [left; apply Hn2; exact Hk'|right].
        apply in_app_or in Hk'. destruct Hk' as [Hk'|Hk']; [right|left; exact Hk'].
        apply in_map_iff in Hk'. destruct Hk' as ([k' l'] & He & Hin). exists k', l'. split; [exact Hin|symmetry; exact He].
      * left. unfold d0 in Hk. cbn in Hk.
        destruct (String.eqb k "cpudt") eqn:E1; [apply String.eqb_eq in E1; subst; cbn; auto|].
        destruct (String.eqb k "iter_count") eqn:E2; [apply String.eqb_eq in E2; subst; cbn; auto|].
        destruct (String.eqb k "cost") eqn:E3; [apply String.eqb_eq in E3; subst; cbn; auto|].
        destruct (String.eqb k "opti_stats") eqn:E4; [apply String.eqb_eq in E4; subst; cbn; auto|discriminate].
  - apply Hget. apply in_or_app; left; apply in_or_app; right; apply in_or_app; right; left; reflexivity.
  - intros t q su' Hq1 Hq2 Hq3 Hq4 Hsu Hst. exists (puts L (d0 t)). split.
    + unfold SolveModel.finish. cbn [sp_cost with_sol]. rewrite Hq4. fold (cost_entry p sol). rewrite Hcost, Hst, Hit.
      assert (Hsw : save_writes (with_sol _ _ _ _ sol q) su' sol = save_writes (with_sol _ _ _ _ sol p) su sol).
      { rewrite Hsu. unfold SolveModel.save_writes. cbn. rewrite Hq1, Hq2, Hq3. reflexivity. }
      rewrite Hsw. fold (d0 t). rewrite (run_ok _ _ _ Hws). reflexivity.
    + intros k Hk. apply puts_ext. unfold d0. cbn. apply String.eqb_neq in Hk. rewrite Hk. reflexivity.
Qed.

(** ** Solving *)
Lemma solve_times_ok : forall n st st' total sol, solved n st st' total sol -> forall clock last,
  solve_times n st clock last = (st', clock + total, Ok (Some sol)).
Proof.
  intros n st st' total sol H. induction H as [st st' d sol H|n st st1 st2 d1 d2 sol1 sol2 H Hs IH]; intros clock last; cbn; rewrite H.
  - reflexivity.
  - rewrite IH. rewrite Rplus_assoc. reflexivity.
Qed.
Lemma solve_times_fails : forall n st e, fails n st e -> forall clock last,
  exists st' clock', solve_times n st clock last = (st', clock', Err e).
Proof.
  intros n st e H. induction H as [n st st' d e H|n st st' d sol e H Hs IH]; intros clock last; cbn; rewrite H.
  - eexists _, _; reflexivity.
  - apply IH.
Qed.
Lemma solve_cases : forall n st, (0 < n)%nat -> (exists st' total sol, solved n st st' total sol) \/ (exists e, fails n st e).
Proof.
  intros n st Hn. destruct n as [|n]; [lia|clear Hn]. revert st. induction n as [|n IH]; intros st.
  - destruct (opti_solve st) as [[st' d] [sol|e]] eqn:H; [left; exists st', d, sol; constructor; exact H|right; exists e; eapply fails_now; exact H].
  - destruct (opti_solve st) as [[st' d] [sol|e]] eqn:H; [|right; exists e; eapply fails_now; exact H].
    destruct (IH st') as [(st2 & tot & sol2 & Hs)|[e He]].
    + left. exists st2, (d + tot), sol2. eapply solved_more; eassumption.
    + right. exists e. eapply fails_later; eassumption.
Qed.
Lemma solved_pos : forall n st st' total sol, solved n st st' total sol -> (0 < n)%nat.
Proof. intros n st st' total sol H; destruct H; auto with arith. Qed.

Lemma simple_is_one : forall p st' d sol su, sp_set_up _ _ _ _ p = Some su -> opti_solve (su_opti _ _ su) = (st', d, Ok sol) ->
  simple_solve p = finish (with_opti _ _ st' su) (E_none V) sol (after_solver _ _ _ _ (with_opti _ _ st' su) (sp_clock _ _ _ _ p + d) p).
Proof. intros p st' d sol su Hs Ho. unfold SolveModel.simple_solve. rewrite Hs, Ho. reflexivity. Qed.
Lemma chrono_is : forall n p st' total sol su, sp_set_up _ _ _ _ p = Some su -> solved n (su_opti _ _ su) st' total sol ->
  chrono_solve (Some (Z.of_nat n)) p =
  finish (with_opti _ _ st' su) (E_num V (total / INR n)) sol (after_solver _ _ _ _ (with_opti _ _ st' su) (sp_clock _ _ _ _ p + total) p).
Proof.
  intros n p st' total sol su Hs Ho. pose proof (solved_pos _ _ _ _ _ Ho) as Hn.
  unfold SolveModel.chrono_solve. rewrite Nat2Z.id. destruct n as [|n]; [lia|]. rewrite Hs.
  rewrite (solve_times_ok _ _ _ _ _ Ho). cbn [not_set_up].
  replace (Z.eqb (Z.of_nat (S n)) 0) with false by (symmetry; apply Z.eqb_neq; lia).
  cbn [sp_set_up after_solver sp_clock].
  replace (sp_clock _ _ _ _ p + total - sp_clock _ _ _ _ p) with total by ring.
  rewrite INR_IZR_INZ. reflexivity.
Qed.

Notation counts := (counts opti_stats iter_count).
Notation sound := (sound opti_solve sol_value opti_stats iter_count).
Definition same_frame (p p' : problem) : Prop :=
  sp_mode _ _ _ _ p' = sp_mode _ _ _ _ p /\ sp_scheme _ _ _ _ p' = sp_scheme _ _ _ _ p /\
  sp_params _ _ _ _ p' = sp_params _ _ _ _ p /\ sp_cost _ _ _ _ p' = sp_cost _ _ _ _ p.

Lemma reports_with_opti : forall p p' su st st' c sol r, same_frame p p' ->
  reports p' (with_opti _ _ st' su) st c sol r -> reports p su st c sol r.
Proof.
  intros p p' su st st' c sol r (E1 & E2 & E3 & E4) []. 
  constructor; try assumption.
  - rewrite <- E4. assumption.
  - rewrite <- E3. assumption.
  - rewrite <- E1. assumption.
Qed.

Lemma solve_reports : forall n p su st' total sol, sp_set_up _ _ _ _ p = Some su ->
  solved n (su_opti _ _ su) st' total sol ->
  matches (sp_mode _ _ _ _ p) su -> well_named su -> has_values p su sol -> counts ->
  exists r, let '(p', o) := chrono_solve (Some (Z.of_nat n)) p in
    o = Ok tt /\ sp_results _ _ _ _ p' = Some r /\ sp_sol _ _ _ _ p' = Some sol /\
    sp_set_up _ _ _ _ p' = Some (with_opti _ _ st' su) /\
    sp_clock _ _ _ _ p' = sp_clock _ _ _ _ p + total /\ same_frame p p' /\
    reports p su st' (E_num V (total / INR n)) sol r /\
    dget "scheme" r = Some (E_str V (scheme_entry (sp_mode _ _ _ _ p) (sp_scheme _ _ _ _ p))).
Proof.
  intros n p su st' total sol Hs Ho Hm Hw Hv Hc. rewrite (chrono_is n p st' total sol su Hs Ho).
  set (p1 := after_solver _ _ _ _ _ _ p). set (su1 := with_opti _ _ st' su).
  destruct (finish_ok p1 su1 (E_num V (total / INR n)) sol) as (r & Hr & Hrep & Hsch & _);
    [exact Hm|exact Hw|exact Hv|exact (Hc _)|].
  rewrite Hr. exists r. cbn. repeat (split; [reflexivity|]). split; [repeat split|split; [|exact Hsch]].
  apply (reports_with_opti p p1 su st' st'); [repeat split|exact Hrep].
Qed.
Lemma simple_reports : forall p su st' d sol, sp_set_up _ _ _ _ p = Some su ->
  opti_solve (su_opti _ _ su) = (st', d, Ok sol) ->
  matches (sp_mode _ _ _ _ p) su -> well_named su -> has_values p su sol -> counts ->
  exists r, let '(p', o) := simple_solve p in
    o = Ok tt /\ sp_results _ _ _ _ p' = Some r /\ sp_sol _ _ _ _ p' = Some sol /\
    sp_set_up _ _ _ _ p' = Some (with_opti _ _ st' su) /\
    same_frame p p' /\
    reports p su st' (E_none V) sol r /\
    dget "scheme" r = Some (E_str V (scheme_entry (sp_mode _ _ _ _ p) (sp_scheme _ _ _ _ p))).
Proof.
  intros p su st' d sol Hs Ho Hm Hw Hv Hc. rewrite (simple_is_one p st' d sol su Hs Ho).
  set (p1 := after_solver _ _ _ _ _ _ p). set (su1 := with_opti _ _ st' su).
  destruct (finish_ok p1 su1 (E_none V) sol) as (r & Hr & Hrep & Hsch & _);
    [exact Hm|exact Hw|exact Hv|exact (Hc _)|].
  rewrite Hr. exists r. cbn. repeat (split; [reflexivity|]). split; [repeat split|split; [|exact Hsch]].
  apply (reports_with_opti p p1 su st' st'); [repeat split|exact Hrep].
Qed.

(** A solver that always finds the same solution, with the same statistics. *)
Lemma same_results : forall n p su sol stats, (0 < n)%nat -> sp_set_up _ _ _ _ p = Some su ->
  (forall st, exists st' d, opti_solve st = (st', d, Ok sol) /\ opti_stats st' = stats) ->
  matches (sp_mode _ _ _ _ p) su -> well_named su -> has_values p su sol -> counts ->
  exists r r', sp_results _ _ _ _ (fst (simple_solve p)) = Some r /\
    sp_results _ _ _ _ (fst (chrono_solve (Some (Z.of_nat n)) p)) = Some r' /\
    forall k, k <> "cpudt" -> dget k r' = dget k r.
Proof.
  intros n p su sol stats Hn Hs Hsol Hm Hw Hv Hc.
  assert (Hsolved : exists st' total, solved n (su_opti _ _ su) st' total sol /\ opti_stats st' = stats).
  { destruct n as [|n]; [lia|clear Hn]. generalize (su_opti _ _ su). induction n as [|n IH]; intros st.
    - destruct (Hsol st) as (st' & d & H & H'). exists st', d. split; [constructor; exact H|exact H'].
    - destruct (Hsol st) as (st1 & d & H & _). destruct (IH st1) as (st2 & tot & Hx & Hy).
      exists st2, (d + tot). split; [eapply solved_more; eassumption|exact Hy]. }
  destruct Hsolved as (st2 & total & Hsd & Hst2). destruct (Hsol (su_opti _ _ su)) as (st1 & d & H1 & Hst1).
  rewrite (simple_is_one p st1 d sol su Hs H1), (chrono_is n p st2 total sol su Hs Hsd).
  set (p1 := after_solver _ _ _ _ (with_opti _ _ st1 su) _ p). set (p2 := after_solver _ _ _ _ (with_opti _ _ st2 su) _ p).
  destruct (finish_ok p1 (with_opti _ _ st1 su) (E_none V) sol) as (r & Hr & _ & _ & Hex);
    [exact Hm|exact Hw|exact Hv|exact (Hc _)|].
  destruct (Hex (E_num V (total / INR n)) p2 (with_opti _ _ st2 su)) as (r' & Hr' & Heq); try reflexivity.
  { cbn. rewrite Hst1, Hst2. reflexivity. }
  exists r, r'. rewrite Hr, Hr'. split; [reflexivity|split; [reflexivity|exact Heq]].
Qed.

(** ** Calls that raise *)
Lemma not_set_up_err {A} : forall (r : Res A) e, r = Err e -> not_set_up r = Err (match e with AttributeError => RuntimeError | _ => e end).
Proof. intros r e ->. destruct e; reflexivity. Qed.

Lemma chrono_fails : forall n p su e, sp_set_up _ _ _ _ p = Some su -> fails n (su_opti _ _ su) e ->
  let '(p', o) := chrono_solve (Some (Z.of_nat n)) p in
  o = Err (match e with AttributeError => RuntimeError | _ => e end) /\
  sp_results _ _ _ _ p' = sp_results _ _ _ _ p /\ sp_sol _ _ _ _ p' = sp_sol _ _ _ _ p.
Proof.
  intros n p su e Hs Hf. unfold SolveModel.chrono_solve. rewrite Nat2Z.id.
  assert (Hn : (0 < n)%nat) by (destruct Hf; auto with arith). destruct n as [|n]; [lia|]. rewrite Hs.
  destruct (solve_times_fails _ _ _ Hf (sp_clock _ _ _ _ p) None) as (st' & c' & He). rewrite He.
  rewrite (not_set_up_err _ e eq_refl). repeat split.
Qed.
Lemma simple_fails : forall p su e, sp_set_up _ _ _ _ p = Some su -> fails 1 (su_opti _ _ su) e ->
  let '(p', o) := simple_solve p in
  o = Err (match e with AttributeError => RuntimeError | _ => e end) /\
  sp_results _ _ _ _ p' = sp_results _ _ _ _ p /\ sp_sol _ _ _ _ p' = sp_sol _ _ _ _ p.
Proof.
  intros p su e Hs Hf. unfold SolveModel.simple_solve. rewrite Hs.
  inversion Hf as [n0 st st' d e0 Ho|n0 st st' d sol e0 Ho Hf']; subst; [|inversion Hf'].
  rewrite Ho. rewrite (not_set_up_err _ e eq_refl). repeat split.
Qed.
Lemma refused : forall (p : problem),
  (sp_set_up _ _ _ _ p = None -> simple_solve p = (p, Err RuntimeError) /\
     forall k, (0 < k)%Z -> chrono_solve (Some k) p = (p, Err RuntimeError)) /\
  chrono_solve (Some 0%Z) p = (p, Err ZeroDivisionError) /\
  (forall k, (k < 0)%Z -> chrono_solve (Some k) p = (p, Err UnboundLocalError)) /\
  chrono_solve None p = (p, Err TypeError).
Proof.
  intros p. split; [|split; [|split]].
  - intros H. split; [unfold SolveModel.simple_solve; rewrite H; reflexivity|].
    intros k Hk. unfold SolveModel.chrono_solve. destruct (Z.to_nat k) as [|n] eqn:E0; [lia|]. rewrite H. reflexivity.
  - reflexivity.
  - intros k Hk. unfold SolveModel.chrono_solve. replace (Z.to_nat k) with 0%nat by lia.
    replace (Z.eqb k 0) with false by (symmetry; apply Z.eqb_neq; lia). destruct (sp_set_up _ _ _ _ p); reflexivity.
  - reflexivity.
Qed.

(** ** Histories *)
Lemma solved_last : forall n st st' total sol, solved n st st' total sol -> exists st1 d, opti_solve st1 = (st', d, Ok sol).
Proof. intros n st st' total sol H. induction H as [st st' d sol H|n st st1 st2 d1 d2 sol1 sol2 H Hs IH]; [exists st, d; exact H|exact IH]. Qed.

Lemma sound_next : forall p p' su st, sound p -> sp_set_up _ _ _ _ p = Some su -> same_frame p p' ->
  sp_set_up _ _ _ _ p' = Some (with_opti _ _ st su) -> sound p'.
Proof.
  intros p p' su st [Hc Hs] Hsu (E1 & E2 & E3 & E4) Hsu'. split; [exact Hc|]. intros su0 H0. rewrite Hsu' in H0. injection H0 as <-.
  destruct (Hs su Hsu) as (H1 & H2 & H3). split; [rewrite E1; exact H1|]. split; [exact H2|].
  intros st0 st1 d sol Ho. destruct (H3 st0 st1 d sol Ho) as (X1 & X2 & X3). split; [exact X1|split; [exact X2|rewrite E4; exact X3]].
Qed.

Definition dated (p : problem) (p' : problem) (r : dict) (sol : Sol) : Prop :=
  exists su st c, sp_set_up _ _ _ _ p = Some su /\ sp_results _ _ _ _ p' = Some r /\ sp_sol _ _ _ _ p' = Some sol /\
    reports p su st c sol r /\ (exists st0 d, opti_solve st0 = (st, d, Ok sol)) /\
    dget "scheme" r = Some (E_str V (scheme_entry (sp_mode _ _ _ _ p) (sp_scheme _ _ _ _ p))).
Definition frame_setup (p p' : problem) : Prop :=
  same_frame p p' /\
  match sp_set_up _ _ _ _ p with
  | None => sp_set_up _ _ _ _ p' = None
  | Some su => exists st, sp_set_up _ _ _ _ p' = Some (with_opti _ _ st su)
  end.

Lemma frame_refl : forall p, frame_setup p p.
Proof. intros p. split; [repeat split|]. destruct (sp_set_up _ _ _ _ p) as [[]|]; [eexists; reflexivity|reflexivity]. Qed.

Lemma call_cases : forall p c, sound p ->
  let '(p', o) := call_solve p c in
  frame_setup p p' /\ 
  match o with
  | Ok _ => exists r sol, dated p p' r sol
  | Err _ => sp_results _ _ _ _ p' = sp_results _ _ _ _ p /\ sp_sol _ _ _ _ p' = sp_sol _ _ _ _ p
  end.
Proof.
  intros p c Hsd. destruct c as [|[k|]].
  - cbn [SolveModel.call_solve]. destruct (sp_set_up _ _ _ _ p) as [su|] eqn:Hsu.
    + destruct Hsd as [Hc Hs]. destruct (Hs su Hsu) as (H1 & H2 & H3).
      destruct (opti_solve (su_opti _ _ su)) as [[st' d] [sol|e]] eqn:Ho.
      * destruct (simple_reports p su st' d sol Hsu Ho H1 H2 (H3 _ _ _ _ Ho) Hc) as [r Hr].
        destruct (simple_solve p) as [p' o]. destruct Hr as (-> & R1 & R2 & R3 & R4 & R5 & R6).
        split; [split; [exact R4|rewrite Hsu; exists st'; exact R3]|]. exists r, sol, su, st', (E_none V). repeat (split; [assumption|]). split; [exists (su_opti _ _ su), d; exact Ho|exact R6].
      * unfold SolveModel.simple_solve. rewrite Hsu, Ho. rewrite (not_set_up_err _ e eq_refl).
        split; [split; [repeat split|rewrite Hsu; exists st'; reflexivity]|split; reflexivity].
    + destruct (refused p) as [R1 _]. rewrite (proj1 (R1 Hsu)). split; [apply frame_refl|split; reflexivity].
  - cbn [SolveModel.call_solve]. destruct (refused p) as (R0 & Rz & Rn & _). destruct (Z.lt_trichotomy k 0) as [Hk|[Hk|Hk]].
    + rewrite (Rn k Hk). split; [apply frame_refl|split; reflexivity].
    + subst k. rewrite Rz. split; [apply frame_refl|split; reflexivity].
    + destruct (sp_set_up _ _ _ _ p) as [su|] eqn:Hsu; [|rewrite (proj2 (R0 eq_refl) k Hk); split; [apply frame_refl|split; reflexivity]].
      clear R0. destruct Hsd as [Hc Hs]. destruct (Hs su Hsu) as (H1 & H2 & H3).
      replace k with (Z.of_nat (Z.to_nat k)) by lia. set (n := Z.to_nat k). assert (Hn : (0 < n)%nat) by (unfold n; lia).
      destruct (solve_cases n (su_opti _ _ su) Hn) as [(st' & total & sol & Hx)|[e He]].
      * destruct (solved_last _ _ _ _ _ Hx) as (st1 & d & Hlast).
        destruct (solve_reports n p su st' total sol Hsu Hx H1 H2 (H3 _ _ _ _ Hlast) Hc) as [r Hr].
        destruct (chrono_solve (Some (Z.of_nat n)) p) as [p' o]. destruct Hr as (-> & Q1 & Q2 & Q3 & _ & Q4 & Q5 & Q6).
        split; [split; [exact Q4|rewrite Hsu; exists st'; exact Q3]|]. exists r, sol, su, st', (E_num V (total / INR n)). repeat (split; [assumption|]). split; [exists st1, d; exact Hlast|exact Q6].
      * unfold SolveModel.chrono_solve. rewrite Nat2Z.id. destruct n as [|n']; [lia|]. rewrite Hsu.
        destruct (solve_times_fails _ _ _ He (sp_clock _ _ _ _ p) None) as (st' & c' & He'). rewrite He'.
        rewrite (not_set_up_err _ e eq_refl). split; [split; [repeat split|rewrite Hsu; exists st'; reflexivity]|split; reflexivity].
  - cbn. split; [apply frame_refl|split; reflexivity].
Qed.

Lemma frame_trans : forall p p1 p2, frame_setup p p1 -> frame_setup p1 p2 -> frame_setup p p2.
Proof.
  intros p p1 p2 [(A1 & A2 & A3 & A4) A] [(B1 & B2 & B3 & B4) B]. split; [repeat split; congruence|].
  destruct (sp_set_up _ _ _ _ p) as [su|].
  - destruct A as [st A]. rewrite A in B. destruct B as [st' B]. exists st'. exact B.
  - rewrite A in B. exact B.
Qed.
Lemma frame_sound : forall p p', frame_setup p p' -> sound p -> sound p'.
Proof.
  intros p p' [Hf H] Hs. destruct (sp_set_up _ _ _ _ p) as [su|] eqn:Hsu.
  - destruct H as [st H]. eapply sound_next; eassumption.
  - split; [apply Hs|]. rewrite H. discriminate.
Qed.

(** Results and solution are those of the last call that did not raise. *)
Lemma history : forall cs p, sound p ->
  let '(p', os) := call_all p cs in
  frame_setup p p' /\
  if existsb is_ok os then exists r sol su st c, sp_set_up _ _ _ _ p = Some su /\ sp_results _ _ _ _ p' = Some r /\
                             sp_sol _ _ _ _ p' = Some sol /\ reports p su st c sol r /\
                             exists st0 d, opti_solve st0 = (st, d, Ok sol)
  else sp_results _ _ _ _ p' = sp_results _ _ _ _ p /\ sp_sol _ _ _ _ p' = sp_sol _ _ _ _ p.
Proof.
  induction cs as [|c cs IH]; intros p Hs; cbn [SolveModel.call_all].
  - split; [apply frame_refl|split; reflexivity].
  - pose proof (call_cases p c Hs) as Hc. destruct (call_solve p c) as [p1 o]. destruct Hc as [Hf Hc].
    specialize (IH p1 (frame_sound _ _ Hf Hs)). destruct (call_all p1 cs) as [p2 os]. destruct IH as [Hf2 IH].
    split; [eapply frame_trans; eassumption|]. cbn [existsb].
    destruct (existsb is_ok os).
    + rewrite Bool.orb_true_r. destruct IH as (r & sol & su1 & st & c' & H1 & H2 & H3 & H4 & H5).
      destruct Hf as [Hfr Hf]. destruct (sp_set_up _ _ _ _ p) as [su|].
      * destruct Hf as [st0 Hf]. rewrite Hf in H1. injection H1 as <-. exists r, sol, su, st, c'.
        split; [reflexivity|split; [exact H2|split; [exact H3|split; [|exact H5]]]]. exact (reports_with_opti p p1 su st st0 c' sol r Hfr H4).
      * rewrite Hf in H1. discriminate.
    + destruct IH as [I1 I2]. destruct o as [u|e]; cbn [is_ok orb].
      * destruct Hc as (r & sol & su & st & c' & H1 & H2 & H3 & H4 & H5 & _). exists r, sol, su, st, c'. 
        split; [exact H1|split; [rewrite I1; exact H2|split; [rewrite I2; exact H3|split; [exact H4|exact H5]]]].
      * destruct Hc as [C1 C2]. split; congruence.
Qed.

(** ** Statements for the properties *)
Lemma simple_stores : forall p su st' d sol, sp_set_up _ _ _ _ p = Some su ->
  opti_solve (su_opti _ _ su) = (st', d, Ok sol) ->
  matches (sp_mode _ _ _ _ p) su -> well_named su -> has_values p su sol -> counts ->
  exists r, let '(p', o) := simple_solve p in
    o = Ok tt /\ sp_results _ _ _ _ p' = Some r /\ sp_sol _ _ _ _ p' = Some sol /\ reports p su st' (E_none V) sol r.
Proof.
  intros p su st' d sol H1 H2 H3 H4 H5 H6. destruct (simple_reports p su st' d sol H1 H2 H3 H4 H5 H6) as [r Hr]. exists r.
  destruct (simple_solve p) as [p' o]. destruct Hr as (A & B & C & _ & _ & D & _). split; [exact A|split; [exact B|split; [exact C|exact D]]].
Qed.
Lemma chrono_stores : forall n p su st' total sol, sp_set_up _ _ _ _ p = Some su ->
  solved n (su_opti _ _ su) st' total sol ->
  matches (sp_mode _ _ _ _ p) su -> well_named su -> has_values p su sol -> counts ->
  exists r, let '(p', o) := chrono_solve (Some (Z.of_nat n)) p in
    o = Ok tt /\ sp_results _ _ _ _ p' = Some r /\ sp_sol _ _ _ _ p' = Some sol /\
    reports p su st' (E_num V (total / INR n)) sol r.
Proof.
  intros n p su st' d sol H1 H2 H3 H4 H5 H6. destruct (solve_reports n p su st' d sol H1 H2 H3 H4 H5 H6) as [r Hr]. exists r.
  destruct (chrono_solve (Some (Z.of_nat n)) p) as [p' o]. destruct Hr as (A & B & C & _ & _ & _ & D & _). split; [exact A|split; [exact B|split; [exact C|exact D]]].
Qed.
Lemma refused_calls : forall (p : problem),
  (sp_set_up _ _ _ _ p = None -> simple_solve p = (p, Err RuntimeError) /\
     forall k, (0 < k)%Z -> chrono_solve (Some k) p = (p, Err RuntimeError)) /\
  chrono_solve (Some 0%Z) p = (p, Err ZeroDivisionError) /\
  (forall k, (k < 0)%Z -> chrono_solve (Some k) p = (p, Err UnboundLocalError)).
Proof. intros p. destruct (refused p) as (A & B & C & _). split; [exact A|split; [exact B|exact C]]. Qed.
Lemma no_default : forall (p : problem), chrono_solve None p = (p, Err TypeError).
Proof. reflexivity. Qed.
Lemma history_results : forall cs p, sound p ->
  let '(p', os) := call_all p cs in
  if existsb is_ok os
  then exists r sol su st seconds, sp_set_up _ _ _ _ p = Some su /\ sp_results _ _ _ _ p' = Some r /\ sp_sol _ _ _ _ p' = Some sol /\
         reports p su st seconds sol r /\ exists st0 d, opti_solve st0 = (st, d, Ok sol)
  else sp_results _ _ _ _ p' = sp_results _ _ _ _ p /\ sp_sol _ _ _ _ p' = sp_sol _ _ _ _ p.
Proof. intros cs p Hs. pose proof (history cs p Hs) as H. destruct (call_all p cs) as [p' os]. apply H. Qed.
Lemma stored_entry : forall p c p', sound p -> call_solve p c = (p', Ok tt) ->
  exists r, sp_results _ _ _ _ p' = Some r /\
    dget "scheme" r = Some (E_str V (scheme_entry (sp_mode _ _ _ _ p) (sp_scheme _ _ _ _ p))).
Proof.
  intros p c p' Hs Hc. pose proof (call_cases p c Hs) as H. rewrite Hc in H.
  destruct H as [_ (r & sol & su & st & t & _ & H1 & _ & _ & _ & H2)]. exists r. split; assumption.
Qed.
End SolveProofs.
