(** Stored results with a small pickle: histories that go wrong, and one that
    shows the assumptions on pickle are met. *)
From Coq Require Import String List Arith Bool Lia.
From Verif Require Import Prelude StoreModel StoreSpec StoreProofs StoreHistProofs.
Import ListNotations.
Open Scope nat_scope.
Open Scope list_scope.

(** Values: a number, and whether it is a float.  An int and a float of the
    same value are [==]; 99 stands for a value that cannot be pickled, 98 for one
    without a hash. *)
Definition val : Type := nat * bool.
Definition vnone : val := (0, false).
Definition veq (v w : val) : bool := fst v =? fst w.
Definition vhash (v : val) : bool := negb (fst v =? 98).
Definition enc (v : val) : list nat := [fst v; if snd v then 1 else 0].
Definition enc_entry (e : list val * val) : list nat :=
  1 :: length (fst e) :: flat_map enc (fst e) ++ enc (snd e).
Definition enc_dict (d : dict val) : list nat := flat_map enc_entry d ++ [0].
Definition ok_val (v : val) : bool := negb (fst v =? 99).
Definition ok_dict (d : dict val) : bool := forallb (fun e => forallb ok_val (fst e) && ok_val (snd e)) d.
Definition tdumps (d : dict val) : list nat * bool := if ok_dict d then (enc_dict d, true) else ([1], false).
Fixpoint dec_vals (n : nat) (b : list nat) : option (list val * list nat) :=
  match n with
  | O => Some ([], b)
  | S n' => match b with
            | x :: t :: b' => match dec_vals n' b' with
                              | Some (vs, r) => Some ((x, negb (t =? 0)) :: vs, r)
                              | None => None
                              end
            | _ => None
            end
  end.
Fixpoint dec_dict (fuel : nat) (b : list nat) : option (dict val) :=
  match fuel with
  | O => None
  | S k => match b with
           | [] => None
           | 0 :: _ => Some []
           | _ :: [] => None
           | _ :: n :: b' => match dec_vals n b' with
                             | Some (key, b'') => match dec_vals 1 b'' with
                                                  | Some ([v], b3) => match dec_dict k b3 with
                                                                      | Some d => Some ((key, v) :: d)
                                                                      | None => None
                                                                      end
                                                  | _ => None
                                                  end
                             | None => None
                             end
           end
  end.
Definition tloads (b : list nat) : option (loaded val) := option_map (L_dict val) (dec_dict (length b) b).

Lemma dec_enc k : forall r, dec_vals (length k) (flat_map enc k ++ r) = Some (k, r).
Proof.
  induction k as [|[n t] k IH]; intros r; [reflexivity|]. cbn [length flat_map enc fst snd app dec_vals]. rewrite IH. now destruct t.
Qed.
Lemma dec_short n : forall b, length b < 2 * n -> dec_vals n b = None.
Proof.
  induction n as [|n IH]; intros b L; [lia|]. destruct b as [|x [|t b]]; [reflexivity|reflexivity|].
  cbn [dec_vals]. rewrite IH; [reflexivity|cbn [length] in L; lia].
Qed.
Lemma enc_length k : length (flat_map enc k) = 2 * length k.
Proof. induction k as [|v k IH]; [reflexivity|]. cbn [flat_map enc app length]. rewrite IH. lia. Qed.
Lemma entry_length e : length (enc_entry e) = 4 + 2 * length (fst e).
Proof. unfold enc_entry. cbn [length]. rewrite app_length, enc_length. cbn [enc length]. lia. Qed.
Lemma enc_entry_app e b : enc_entry e ++ b = 1 :: length (fst e) :: flat_map enc (fst e) ++ enc (snd e) ++ b.
Proof. unfold enc_entry. cbn [app]. now rewrite <- app_assoc. Qed.
Lemma dec_entry k e b : dec_dict (S k) (enc_entry e ++ b) = match dec_dict k b with Some d => Some (e :: d) | None => None end.
Proof.
  rewrite enc_entry_app. cbn [dec_dict]. rewrite dec_enc. pose proof (dec_enc [snd e] b) as E. cbn [length flat_map] in E. rewrite app_nil_r in E.
  rewrite E. destruct e; reflexivity.
Qed.
Lemma dec_encoded d : forall k junk, length d < k -> dec_dict k (enc_dict d ++ junk) = Some d.
Proof.
  induction d as [|e d IH]; intros k junk L; (destruct k as [|k]; [lia|]); [reflexivity|].
  unfold enc_dict in *. cbn [flat_map]. rewrite <- !app_assoc. rewrite dec_entry. rewrite app_assoc, IH; [reflexivity|cbn [length] in L; lia].
Qed.
Lemma dict_length d : length d < length (enc_dict d).
Proof.
  induction d as [|e d IH]; [cbn; lia|]. unfold enc_dict in *. cbn [flat_map length]. rewrite <- app_assoc, app_length, entry_length. lia.
Qed.
Lemma dec_prefix d : forall k c t, enc_dict d = c ++ t -> t <> [] -> dec_dict k c = None.
Proof.
  induction d as [|e d IH]; intros k c t E T; (destruct k as [|k]; [reflexivity|]).
  - cbn in E. destruct c as [|x c]; [reflexivity|]. cbn in E. inversion E as [[E1 E2]]. destruct c; [cbn in E2; congruence|discriminate].
  - unfold enc_dict in E. cbn [flat_map] in E. rewrite <- app_assoc in E. fold (enc_dict d) in E.
    assert (LL : length (enc_entry e) <= length c \/ length c < length (enc_entry e)) by lia. destruct LL as [LL|LL].
    + assert (EC : exists c', c = enc_entry e ++ c' /\ enc_dict d = c' ++ t).
      { exists (skipn (length (enc_entry e)) c). assert (F : firstn (length (enc_entry e)) c = enc_entry e).
        { assert (X : firstn (length (enc_entry e)) (enc_entry e ++ enc_dict d) = firstn (length (enc_entry e)) (c ++ t)) by now rewrite E.
          rewrite firstn_app, Nat.sub_diag, firstn_all, app_nil_r in X. rewrite firstn_app in X.
          replace (length (enc_entry e) - length c) with 0 in X by lia. rewrite app_nil_r in X. congruence. }
        split; [rewrite <- F at 1; now rewrite firstn_skipn|].
        assert (X : skipn (length (enc_entry e)) (enc_entry e ++ enc_dict d) = skipn (length (enc_entry e)) (c ++ t)) by now rewrite E.
        rewrite skipn_app, Nat.sub_diag, skipn_all in X. cbn [app skipn] in X. rewrite X, skipn_app.
        replace (length (enc_entry e) - length c) with 0 by lia. reflexivity. }
      destruct EC as (c' & -> & E'). rewrite dec_entry, (IH k c' t E' T). reflexivity.
    + rewrite entry_length in LL. rewrite enc_entry_app in E.
      destruct c as [|x [|n c]]; [reflexivity| |].
      * cbn in E. inversion E; subst. reflexivity.
      * cbn [app] in E. assert (E1 : x = 1) by congruence. assert (E2 : n = length (fst e)) by congruence.
        assert (E3 : flat_map enc (fst e) ++ enc (snd e) ++ enc_dict d = c ++ t) by congruence. subst x n. cbn [length] in LL. cbn [dec_dict].
        assert (CASES : length c < 2 * length (fst e) \/ 2 * length (fst e) <= length c) by lia. destruct CASES as [C|C].
        -- now rewrite dec_short.
        -- assert (EC : exists c', c = flat_map enc (fst e) ++ c').
           { exists (skipn (length (flat_map enc (fst e))) c). assert (F : firstn (length (flat_map enc (fst e))) c = flat_map enc (fst e)).
             { assert (X : firstn (length (flat_map enc (fst e))) (flat_map enc (fst e) ++ enc (snd e) ++ enc_dict d) = firstn (length (flat_map enc (fst e))) (c ++ t)) by now rewrite E3.
               rewrite firstn_app, Nat.sub_diag, firstn_all, app_nil_r in X. rewrite firstn_app in X.
               replace (length (flat_map enc (fst e)) - length c) with 0 in X by (rewrite enc_length; lia). rewrite app_nil_r in X. congruence. }
             rewrite <- F at 1. now rewrite firstn_skipn. }
           destruct EC as (c' & ->). rewrite dec_enc. rewrite app_length, enc_length in LL.
           rewrite (dec_short 1 c') by lia. reflexivity.
Qed.
Theorem toy_pickle : pickle_ok val tdumps tloads.
Proof.
  unfold pickle_ok, tdumps, tloads. split; [|split; [|split]].
  - intros d b junk E. destruct (ok_dict d); [|discriminate]. inversion E; subst. rewrite dec_encoded; [reflexivity|].
    rewrite app_length. pose proof (dict_length d). lia.
  - intros d b E. destruct (ok_dict d); [discriminate|]. inversion E; subst. reflexivity.
  - intros d b g c t E EB T. destruct (ok_dict d).
    + inversion E; subst. rewrite (dec_prefix d _ c t) by auto. reflexivity.
    + assert (E' : [1] = c ++ t) by congruence. destruct c as [|x c]; [reflexivity|]. assert (E2 : [] = c ++ t) by (cbn in E'; congruence).
      destruct c; [cbn in E2; congruence|discriminate].
  - reflexivity.
Qed.

(** f(x) = x + 10, with the type of x; g(x, y = 1) = x + y; another f. *)
Definition fun_f : func val :=
  {| f_name := "f"%string; f_params := [("x"%string, None)];
     f_body := fun k => match k with [v] => Ok (fst v + 10, snd v) | _ => Err TypeError end |}.
Definition fun_g : func val :=
  {| f_name := "g"%string; f_params := [("x"%string, None); ("y"%string, Some (1, false))];
     f_body := fun k => match k with [v; w] => Ok (fst v + fst w, false) | _ => Err TypeError end |}.
Definition fun_f' : func val :=
  {| f_name := "f"%string; f_params := [("x"%string, None)];
     f_body := fun k => match k with [v] => Ok (fst v + 20, snd v) | _ => Err TypeError end |}.
Definition pos (l : list val) : args val := {| a_pos := l; a_kw := [] |}.
Definition no_files : fs := {| fs_dir := false; fs_file := fun _ => None |}.
Notation thistory := (history val vnone veq vhash tdumps tloads).
Notation tcalls := (calls_alone val vnone veq vhash tdumps tloads).

(** Whole calls, in several styles. *)
Lemma calls_example :
  snd (tcalls 50 no_files
         [(fun_g, pos [(2, false)]); (fun_g, {| a_pos := []; a_kw := [("y"%string, (1, false)); ("x"%string, (2, false))] |});
          (fun_f, pos [(2, false)]); (fun_g, pos [(2, false); (5, false)]); (fun_g, pos []); (fun_g, {| a_pos := [(2, false)]; a_kw := [("y"%string, (5, false))] |})])
  = [Some (Returned val (3, false)); Some (Returned val (3, false)); Some (Returned val (12, false));
     Some (Returned val (7, false)); Some (Raised val (Python TypeError)); Some (Returned val (7, false))].
Proof. vm_compute. reflexivity. Qed.

(** Two processes that write in pieces: the entry of one gets the value of the
    other, and a later call returns it. *)
Definition mixing : list (event val) :=
  [E_call val 0 fun_f (pos [(1, false)]); E_step val 0 0; E_step val 0 0;
   E_call val 1 fun_f (pos [(2, false)]); E_step val 1 0;
   E_step val 0 0; E_step val 1 0; E_step val 0 0; E_step val 1 0; E_step val 0 0; E_step val 1 0;
   E_step val 0 3; E_step val 1 9; E_step val 1 9; E_step val 0 9; E_step val 0 9;
   E_call val 2 fun_f (pos [(2, false)]); E_step val 2 9; E_step val 2 9; E_step val 2 9].
Lemma mixing_wrong : y_log val (thistory (empty_sys val no_files) mixing)
  = [(fun_f, pos [(2, false)], Returned val (11, false)); (fun_f, pos [(1, false)], Returned val (11, false));
     (fun_f, pos [(2, false)], Returned val (12, false))].
Proof. vm_compute. reflexivity. Qed.
Lemma mixing_refutes :
  In (fun_f, pos [(2, false)], Returned val (11, false)) (y_log val (thistory (empty_sys val no_files) mixing)) /\
  call_func val fun_f (pos [(2, false)]) = Ok (12, false).
Proof. rewrite mixing_wrong. split; [now left|reflexivity]. Qed.

(** A crash after the file is opened: the file is empty, and the function can
    not be called any more. *)
Definition crash_open : list (event val) :=
  E_call val 0 fun_f (pos [(1, false)]) :: repeat (E_step val 0 9) 5 ++ [E_crash val 0].
Lemma crash_example :
  let s := y_fs val (thistory (empty_sys val no_files) crash_open) in
  fs_dir s = true /\ fs_file s "f" = Some [].
Proof. vm_compute. split; reflexivity. Qed.
Lemma crash_stuck : forall fuel v, 3 <= fuel ->
  let s := y_fs val (thistory (empty_sys val no_files) crash_open) in
  call_alone val vnone veq vhash tdumps tloads fuel s fun_f (pos [v]) = (s, Some (Raised val UnpicklingError)).
Proof.
  intros fuel v L s. destruct crash_example as [D F]. apply unreadable_stays with (c := []) (vs := [v]); auto.
Qed.
(** A result that cannot be pickled: the first call raises, and the function can
    not be called with any other argument either. *)
Lemma unpicklable_example :
  snd (tcalls 50 no_files [(fun_f, pos [(1, false)]); (fun_f, pos [(89, false)]); (fun_f, pos [(1, false)])])
  = [Some (Returned val (11, false)); Some (Raised val PicklingError); Some (Raised val UnpicklingError)].
Proof. vm_compute. reflexivity. Qed.
(** Two first calls at the same time: one of them fails to make the directory. *)
Lemma mkdir_race :
  y_log val (thistory (empty_sys val no_files)
    [E_call val 0 fun_f (pos [(1, false)]); E_call val 1 fun_g (pos [(1, false)]); E_step val 0 0; E_step val 1 0; E_step val 0 0; E_step val 1 0])
  = [(fun_g, pos [(1, false)], Raised val FileExistsError)].
Proof. vm_compute. reflexivity. Qed.
(** Functions of the same name, and arguments that are [==]. *)
Lemma same_name_shared :
  snd (tcalls 50 no_files [(fun_f, pos [(1, false)]); (fun_f', pos [(1, false)])])
  = [Some (Returned val (11, false)); Some (Returned val (11, false))] /\
  call_func val fun_f' (pos [(1, false)]) = Ok (21, false).
Proof. vm_compute. split; reflexivity. Qed.
Lemma equal_args_shared :
  snd (tcalls 50 no_files [(fun_f, pos [(1, false)]); (fun_f, pos [(1, true)])])
  = [Some (Returned val (11, false)); Some (Returned val (11, false))] /\
  call_func val fun_f (pos [(1, true)]) = Ok (11, true).
Proof. vm_compute. split; reflexivity. Qed.
(** Arguments without a hash. *)
Lemma unhashable_example :
  snd (tcalls 50 no_files [(fun_f, pos [(98, false)])]) = [Some (Raised val (Python TypeError))] /\
  call_func val fun_f (pos [(98, false)]) = Ok (108, false).
Proof. vm_compute. split; reflexivity. Qed.

(** fun_g meets the hypotheses of the theorems; so do histories with crashes. *)
Lemma g_fine : proper val fun_g /\ respects_eq val veq fun_g.
Proof.
  split.
  - unfold proper. cbn. repeat constructor; cbn; intros H; repeat destruct H as [H|H]; try discriminate; contradiction.
  - intros k l. destruct k as [|[a ta] [|[b tb] [|? ?]]], l as [|[a' ta'] [|[b' tb'] [|? ?]]]; cbn; try discriminate; try reflexivity;
      unfold veq; cbn; intros E; rewrite ?andb_true_iff in E;
      try (repeat match goal with H : _ /\ _ |- _ => destruct H end; try discriminate;
           repeat match goal with H : (_ =? _) = true |- _ => apply Nat.eqb_eq in H end; subst; reflexivity).
Qed.
Lemma crash_history_fine :
  let es := [E_call val 0 fun_g (pos [(1, false)]); E_step val 0 0; E_step val 0 0; E_step val 0 0; E_step val 0 0; E_step val 0 0; E_crash val 0;
             E_call val 1 fun_g (pos [(1, false)]); E_step val 1 0; E_step val 1 0; E_step val 1 0] in
  calls_in val (fun f => f = fun_g) es /\ throughout val vnone veq vhash tdumps tloads (alone val) (empty_sys val no_files) es /\
  y_log val (thistory (empty_sys val no_files) es) = [(fun_g, pos [(1, false)], Raised val UnpicklingError)].
Proof.
  split; [|split].
  - intros i f a H. cbn in H. repeat destruct H as [H|H]; try discriminate; try contradiction; inversion H; subst; split; try reflexivity; constructor.
  - repeat (split; [exact I || (vm_compute; intros j p Hj; try discriminate)|]); try exact I.
    all: repeat (destruct j as [|j]; try discriminate).
  - vm_compute. reflexivity.
Qed.

(** A function whose results can all be pickled. *)
Definition fun_h : func val :=
  {| f_name := "h"%string; f_params := [("x"%string, None)];
     f_body := fun k => match k with [v] => if fst v <? 50 then Ok (fst v + 10, false) else Err ValueError | _ => Err TypeError end |}.
Lemma h_fine : proper val fun_h /\ respects_eq val veq fun_h /\ picklable val tdumps fun_h /\ eq_on_keys val veq.
Proof.
  split; [|split; [|split]].
  - unfold proper. cbn. repeat constructor. cbn. tauto.
  - intros k l E. destruct k as [|[a ta] k], l as [|[a' ta'] l]; cbn [tup_eq] in E; try discriminate; [reflexivity|].
    apply andb_true_iff in E. destruct E as [E1 E2]. unfold veq in E1. cbn [fst] in E1. apply Nat.eqb_eq in E1. subst a'.
    destruct k, l; cbn [tup_eq] in E2; try discriminate; reflexivity.
  - intros d R. unfold tdumps. assert (OK : ok_dict d = true); [|now rewrite OK].
    apply forallb_forall. intros [k v] I. unfold right in R. rewrite Forall_forall in R. specialize (R _ I). cbn [fst snd] in R.
    destruct k as [|x [|? ?]]; cbn [fun_h f_body] in R; try discriminate.
    destruct (fst x <? 50) eqn:E; rewrite E in R || idtac; [|discriminate R]. apply Nat.ltb_lt in E.
    inversion R; subst v. cbn [fst snd forallb]. unfold ok_val. cbn [fst].
    rewrite andb_true_iff, andb_true_iff, !negb_true_iff, !Nat.eqb_neq. repeat split; lia.
  - split; [|split].
    + induction k as [|x k IH]; [reflexivity|]. cbn [tup_eq]. rewrite IH. unfold veq. now rewrite Nat.eqb_refl.
    + induction k as [|x k IH]; intros [|y l]; cbn [tup_eq]; try discriminate; auto. rewrite !andb_true_iff. intros [A B].
      split; [unfold veq in *; now rewrite Nat.eqb_sym|auto].
    + induction k as [|x k IH]; intros [|y l] [|z m]; cbn [tup_eq]; try discriminate; auto. rewrite !andb_true_iff. intros [A B] [C D].
      split; [unfold veq in *; apply Nat.eqb_eq in A, C; rewrite A, C; apply Nat.eqb_refl|eauto].
Qed.
