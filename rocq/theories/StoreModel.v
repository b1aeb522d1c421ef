(** Model of the stored results: [store_results] and what it uses,
    chords/numpy.py:238-306.  A decorated function is called by processes that
    share a directory.  Each call is a small machine whose steps are the accesses
    to the file system, in the order of the code, so that a history may stop a
    process between any two of them or interleave several processes.

    Simplifications: the parameters of the functions are positional-or-keyword
    ones (as in all the decorated functions of the repository); the result of
    the function decorated depends on the values of its parameters only and it
    uses no file of its own; a file is read at one moment; nothing else writes
    in the directory func_results. *)
From Coq Require Import String List Arith Bool.
From Verif Require Import Prelude.
Import ListNotations.
Open Scope list_scope.

Section Store.
  (** Python values, None, [==] (with a hash that respects it), whether a value
      has a hash. *)
  Variable V : Type.
  Variable none : V.
  Variable py_eq : V -> V -> bool.
  Variable hashable : V -> bool.

  (** inspect.signature(func).parameters with defaults, func.__name__ and the
      function itself, of the values of its parameters in order. *)
  Record func := { f_name : string; f_params : list (string * option V); f_body : list V -> Res V }.
  (** The arguments of a call: *args, **kwargs. *)
  Record args := { a_pos : list V; a_kw : list (string * V) }.

  Definition find_kw (kw : list (string * V)) (n : string) : option V :=
    match find (fun p => String.eqb (fst p) n) kw with Some p => Some (snd p) | None => None end.

  (** inspect.signature(func).bind( *args, **kwargs ), numpy.py:272, and how
      Python itself gives values to the parameters: by position, by keyword, by
      default; too many, repeated, unknown or missing ones are a TypeError. *)
  Fixpoint bind_params (ps : list (string * option V)) (pos : list V) (kw : list (string * V)) : Res (list V) :=
    match ps with
    | [] => match pos with [] => Ok [] | _ => Err TypeError end
    | (n, d) :: ps' =>
        match pos, find_kw kw n with
        | _ :: _, Some _ => Err TypeError
        | v :: pos', None => do vs <- bind_params ps' pos' kw; Ok (v :: vs)
        | [], Some v => do vs <- bind_params ps' [] kw; Ok (v :: vs)
        | [], None => match d with
                      | Some v => do vs <- bind_params ps' [] kw; Ok (v :: vs)
                      | None => Err TypeError
                      end
        end
    end.
  Definition bind (f : func) (a : args) : Res (list V) :=
    if forallb (fun p => existsb (fun q => String.eqb (fst p) (fst q)) (f_params f)) (a_kw a)
    then bind_params (f_params f) (a_pos a) (a_kw a)
    else Err TypeError.

  (** numpy.py:238-244 [get_default_args] *)
  Definition get_default_args (f : func) : list (string * V) :=
    map (fun p => (fst p, match snd p with Some v => v | None => none end)) (f_params f).
  (** given_args[name] = v *)
  Fixpoint dict_set (d : list (string * V)) (n : string) (v : V) : list (string * V) :=
    match d with
    | [] => [(n, v)]
    | (m, w) :: d' => if String.eqb m n then (m, v) :: d' else (m, w) :: dict_set d' n v
    end.
  (** numpy.py:274-282: given_tup *)
  Definition given_args (f : func) (a : args) : list (string * V) :=
    let argnames := map fst (f_params f) in
    let d := fold_left (fun d p => dict_set d (fst p) (snd p)) (combine argnames (a_pos a)) (get_default_args f) in
    fold_left (fun d p => dict_set d (fst p) (snd p)) (a_kw a) d.
  Definition given_tup (f : func) (a : args) : list V :=
    map (fun n => match find_kw (given_args f a) n with Some v => v | None => none end) (map fst (f_params f)).

  (** Equality of tuples, and a dictionary with tuples as keys. *)
  Fixpoint tup_eq (k l : list V) : bool :=
    match k, l with
    | [], [] => true
    | x :: k', y :: l' => py_eq x y && tup_eq k' l'
    | _, _ => false
    end.
  Definition dict : Type := list (list V * V).
  Definition lookup (d : dict) (k : list V) : option V :=
    match find (fun p => tup_eq (fst p) k) d with Some p => Some (snd p) | None => None end.
  Fixpoint update (d : dict) (k : list V) (r : V) : dict :=
    match d with
    | [] => [(k, r)]
    | (k', r') :: d' => if tup_eq k' k then (k', r) :: d' else (k', r') :: update d' k r
    end.

  (** pickle: [dumps d] are the bytes written by pickle.dump and whether it
      ended without error; [loads] is pickle.load of a file with these bytes. *)
  Inductive loaded := L_dict (d : dict) | L_other.
  Variable dumps : dict -> list nat * bool.
  Variable loads : list nat -> option loaded.

  (** The directory func_results and its files, by the name of the function
      (numpy.py:287-289). *)
  Record fs := { fs_dir : bool; fs_file : string -> option (list nat) }.
  Definition set_file (s : fs) (n : string) (b : list nat) : fs :=
    {| fs_dir := fs_dir s; fs_file := fun m => if String.eqb m n then Some b else fs_file s m |}.
  Definition make_dir (s : fs) : fs := {| fs_dir := true; fs_file := fs_file s |}.
  (** write(chunk) at an offset; a gap is filled with zeros. *)
  Definition overlay (c : list nat) (off : nat) (chunk : list nat) : list nat :=
    firstn off c ++ repeat 0%nat (off - length c) ++ chunk ++ skipn (off + length chunk) c.

  (** How a call ends. *)
  Inductive error := Python (e : exn) | FileExistsError | UnpicklingError | PicklingError.
  Inductive outcome := Returned (v : V) | Raised (e : error).

  (** Where a call is: numpy.py:284-304. *)
  Inductive where_ :=
  | W_exists_dir                                   (* 284 *)
  | W_makedirs                                     (* 285 *)
  | W_exists_file                                  (* 291 *)
  | W_load                                         (* 292-296 *)
  | W_call (d : dict)                              (* 298-300 *)
  | W_open (d : dict) (r : V)                      (* 301 *)
  | W_write (off : nat) (rest : list nat) (good : bool) (r : V).  (* 302, and closing the file *)
  Record proc := { p_func : func; p_args : args; p_key : list V; p_at : where_ }.

  (** numpy.py:270-282: a call starts. *)
  Definition start (f : func) (a : args) : proc + outcome :=
    match bind f a with
    | Err e => inr (Raised (Python e))
    | Ok _ => inl {| p_func := f; p_args := a; p_key := given_tup f a; p_at := W_exists_dir |}
    end.
  Definition go (p : proc) (w : where_) : proc + outcome :=
    inl {| p_func := p_func p; p_args := p_args p; p_key := p_key p; p_at := w |}.

  (** func( *args, **kwargs ), numpy.py:299 *)
  Definition call_func (f : func) (a : args) : Res V := do vs <- bind f a; f_body f vs.

  (** One step; [n] bytes at most are written by a step that writes. *)
  Definition step (n : nat) (s : fs) (p : proc) : fs * (proc + outcome) :=
    let name := f_name (p_func p) in
    let key_ok := forallb hashable (p_key p) in
    match p_at p with
    | W_exists_dir => (s, go p (if fs_dir s then W_exists_file else W_makedirs))
    | W_makedirs => if fs_dir s then (s, inr (Raised FileExistsError)) else (make_dir s, go p W_exists_file)
    | W_exists_file => (s, go p (match fs_file s name with Some _ => W_load | None => W_call [] end))
    | W_load =>
        match fs_file s name with
        | None => (s, inr (Raised FileExistsError))      (* not reached: files are never deleted *)
        | Some b =>
            match loads b with
            | None => (s, inr (Raised UnpicklingError))
            | Some L_other => (s, inr (Raised (Python AssertionError)))
            | Some (L_dict d) =>
                if negb key_ok then (s, inr (Raised (Python TypeError)))
                else match lookup d (p_key p) with
                     | Some r => (s, inr (Returned r))
                     | None => (s, go p (W_call d))
                     end
            end
        end
    | W_call d =>
        match call_func (p_func p) (p_args p) with
        | Err e => (s, inr (Raised (Python e)))
        | Ok r => if key_ok then (s, go p (W_open (update d (p_key p) r) r))
                  else (s, inr (Raised (Python TypeError)))
        end
    | W_open d r => (set_file s name [], go p (W_write 0 (fst (dumps d)) (snd (dumps d)) r))
    | W_write off rest good r =>
        match rest with
        | [] => (s, inr (if good then Returned r else Raised PicklingError))
        | _ =>
            let chunk := firstn (S n) rest in
            let c := match fs_file s name with Some c => c | None => [] end in
            (set_file s name (overlay c off chunk), go p (W_write (off + length chunk) (skipn (S n) rest) good r))
        end
    end.

  (** ** Histories: several processes *)
  Inductive event :=
  | E_call (i : nat) (f : func) (a : args)     (* process i makes a call, if it is in none *)
  | E_step (i n : nat)                         (* process i makes a step *)
  | E_crash (i : nat).                         (* process i dies *)
  (** What a process is doing, the files, and the calls that have ended, the
      last one first. *)
  Record sys := { y_fs : fs; y_procs : nat -> option proc; y_log : list (func * args * outcome) }.
  Definition set_proc (y : nat -> option proc) (i : nat) (p : option proc) : nat -> option proc :=
    fun j => if (j =? i)%nat then p else y j.
  Definition ended (y : sys) (s : fs) (i : nat) (f : func) (a : args) (r : proc + outcome) : sys :=
    match r with
    | inl p => {| y_fs := s; y_procs := set_proc (y_procs y) i (Some p); y_log := y_log y |}
    | inr o => {| y_fs := s; y_procs := set_proc (y_procs y) i None; y_log := (f, a, o) :: y_log y |}
    end.
  Definition happens (y : sys) (e : event) : sys :=
    match e with
    | E_call i f a => match y_procs y i with Some _ => y | None => ended y (y_fs y) i f a (start f a) end
    | E_step i n => match y_procs y i with
                    | None => y
                    | Some p => let (s, r) := step n (y_fs y) p in ended y s i (p_func p) (p_args p) r
                    end
    | E_crash i => {| y_fs := y_fs y; y_procs := set_proc (y_procs y) i None; y_log := y_log y |}
    end.
  Definition history (y : sys) (es : list event) : sys := fold_left happens es y.
  Definition empty_sys (s : fs) : sys := {| y_fs := s; y_procs := fun _ => None; y_log := [] |}.

  (** A whole call of a process that is alone; [fuel] bounds its steps. *)
  Fixpoint finish (fuel : nat) (s : fs) (p : proc) : fs * option outcome :=
    match fuel with
    | O => (s, None)
    | S k => match step 0 s p with
             | (s', inl p') => finish k s' p'
             | (s', inr o) => (s', Some o)
             end
    end.
  Definition call_alone (fuel : nat) (s : fs) (f : func) (a : args) : fs * option outcome :=
    match start f a with inr o => (s, Some o) | inl p => finish fuel s p end.
End Store.
