(** Vocabulary for the properties of stored results. *)
From Coq Require Import String List Bool.
From Verif Require Import Prelude StoreModel.
Import ListNotations.
Open Scope nat_scope.
Open Scope list_scope.

Section Spec.
  Variable V : Type.
  Variable none : V.
  Variable py_eq : V -> V -> bool.
  Variable hashable : V -> bool.
  Variable dumps : dict V -> list nat * bool.
  Variable loads : list nat -> option (loaded V).

  (** What is assumed of pickle: a complete file gives back the dictionary, and
      what an interrupted or failed dump leaves cannot be read. *)
  Definition pickle_ok : Prop :=
    (forall d b junk, dumps d = (b, true) -> loads (b ++ junk) = Some (L_dict V d)) /\
    (forall d b, dumps d = (b, false) -> loads b = None) /\
    (forall d b g c t, dumps d = (b, g) -> b = c ++ t -> t <> [] -> loads c = None) /\
    loads [] = None.

  (** Python's own conditions: names of parameters, and of keywords in a call,
      are different. *)
  Definition proper (f : func V) : Prop := NoDup (map fst (f_params V f)).
  Definition proper_args (a : args V) : Prop := NoDup (map fst (a_kw V a)).
  (** How Python gives values to parameters: the first ones by position, the
      others by keyword or by default; no argument is left over and none is
      given twice. *)
  Definition gives (f : func V) (a : args V) (vs : list V) : Prop :=
    length vs = length (f_params V f) /\
    length (a_pos V a) <= length (f_params V f) /\
    (forall n v, In (n, v) (a_kw V a) -> exists i d, length (a_pos V a) <= i /\ nth_error (f_params V f) i = Some (n, d)) /\
    forall i n d, nth_error (f_params V f) i = Some (n, d) ->
      (i < length (a_pos V a) -> nth_error vs i = nth_error (a_pos V a) i) /\
      (length (a_pos V a) <= i -> (exists v, In (n, v) (a_kw V a) /\ nth_error vs i = Some v) \/
         (~ In n (map fst (a_kw V a)) /\ d <> None /\ nth_error vs i = d)).
  (** The function does not tell apart arguments that are [==]. *)
  Definition respects_eq (f : func V) : Prop := forall k l, tup_eq V py_eq k l = true -> f_body V f k = f_body V f l.
  (** Every entry is the result of the function. *)
  Definition right (f : func V) (d : dict V) : Prop := Forall (fun p => f_body V f (fst p) = Ok (snd p)) d.
  Definition picklable (f : func V) : Prop := forall d, right f d -> snd (dumps d) = true.

  (** The file of [f] was written by completed calls, or there is none. *)
  Definition complete_file (s : fs) (f : func V) : Prop :=
    match fs_file s (f_name V f) with
    | None => True
    | Some b => fs_dir s = true /\ exists d, right f d /\ dumps d = (b, true)
    end.

  (** What the function itself does with these arguments. *)
  Definition plain_call (f : func V) (a : args V) : outcome V :=
    match call_func V f a with Ok v => Returned V v | Err e => Raised V (Python e) end.
  Definition hashable_args (f : func V) (a : args V) : Prop :=
    forall vs, bind V f a = Ok vs -> Forall (fun v => hashable v = true) vs.

  (** Python's [==] on the values used as keys. *)
  Definition eq_on_keys : Prop :=
    (forall k, tup_eq V py_eq k k = true) /\
    (forall k l, tup_eq V py_eq k l = true -> tup_eq V py_eq l k = true) /\
    (forall k l m, tup_eq V py_eq k l = true -> tup_eq V py_eq l m = true -> tup_eq V py_eq k m = true).

  (** A sequence of whole calls, one after another. *)
  Fixpoint calls_alone (fuel : nat) (s : fs) (l : list (func V * args V)) : fs * list (option (outcome V)) :=
    match l with
    | [] => (s, [])
    | (f, a) :: l' =>
        let (s', o) := call_alone V none py_eq hashable dumps loads fuel s f a in
        let (s'', os) := calls_alone fuel s' l' in (s'', o :: os)
    end.

  (** Histories in which no two processes are in calls of functions of the same
      name, and histories in which each file is written in one go. *)
  Notation happens := (happens V none py_eq hashable dumps loads).
  Definition alone (y : sys V) (e : event V) : Prop :=
    match e with
    | E_call _ i f a => forall j p, y_procs V y j = Some p -> f_name V (p_func V p) <> f_name V f
    | _ => True
    end.
  Definition in_one_go (y : sys V) (e : event V) : Prop :=
    match e with
    | E_step _ i n => forall p off rest g r, y_procs V y i = Some p -> p_at V p = W_write V off rest g r -> length rest <= S n
    | _ => True
    end.
  Fixpoint throughout (P : sys V -> event V -> Prop) (y : sys V) (es : list (event V)) : Prop :=
    match es with [] => True | e :: es' => P y e /\ throughout P (happens y e) es' end.

  (** The calls of a history are to functions of a set, with proper arguments. *)
  Definition calls_in (K : func V -> Prop) (es : list (event V)) : Prop :=
    forall i f a, In (E_call V i f a) es -> K f /\ proper_args a.
  (** A set of functions with different names. *)
  Definition different_names (K : func V -> Prop) : Prop :=
    forall f g, K f -> K g -> f_name V f = f_name V g -> f = g.

  (** What is stored for a function and a tuple of arguments. *)
  Definition stored (s : fs) (f : func V) (k : list V) : option V :=
    match fs_file s (f_name V f) with
    | None => None
    | Some b => match loads b with Some (L_dict _ d) => lookup V py_eq d k | _ => None end
    end.
End Spec.
