(** Model of pseudospectral.py:1461-1474 [try_array_f] and of the numpy
    functions it needs.

    An array of any number of dimensions is a tree; the theorems are about
    trees that are arrays (all the items of an array have the same shape). *)
From Verif Require Import Prelude PwInterpModel.
Open Scope R_scope.
Open Scope list_scope.

(** numpy: an array; a number is an array of no dimensions. *)
Inductive arr := Sc (x : R) | Ar (l : list arr).

(** numpy: shape; the shape of an array without items ends there. *)
Fixpoint shape (a : arr) : list nat :=
  match a with
  | Sc _ => []
  | Ar l => length l :: match l with [] => [] | b :: _ => shape b end
  end.
(** numpy: a.shape[0] *)
Definition shape0 (a : arr) : Res nat := match a with Sc _ => Err IndexError | Ar l => Ok (length l) end.
(** numpy: a[ii], ii not negative *)
Definition item (a : arr) (ii : nat) : Res arr :=
  match a with
  | Sc _ => Err IndexError
  | Ar l => match nth_error l ii with Some b => Ok b | None => Err IndexError end
  end.
(** numpy: squeeze, the dimensions of size one are dropped *)
Fixpoint squeeze (a : arr) : arr :=
  match a with
  | Sc x => Sc x
  | Ar [b] => squeeze b
  | Ar l => Ar (map squeeze l)
  end.
(** numpy: array of a list of arrays; they must have the same shape *)
Definition array (l : list arr) : Res arr :=
  match l with
  | [] => Ok (Ar [])
  | b :: l' => if forallb (fun c => if list_eq_dec Nat.eq_dec (shape c) (shape b) then true else false) l'
               then Ok (Ar l) else Err ValueError
  end.

(** numpy: a - b with its broadcasting: the missing first dimensions are added
    to the array with fewer, and dimensions of size one are repeated.  [fuel]
    bounds the number of dimensions of both. *)
Fixpoint minus_upto (fuel : nat) (a b : arr) : Res arr :=
  match fuel with
  | O => match a, b with Sc x, Sc y => Ok (Sc (x - y)) | _, _ => Err ValueError end
  | S k =>
      match a, b with
      | Sc x, Sc y => Ok (Sc (x - y))
      | Ar l, Sc _ => do r <- mapm (fun c => minus_upto k c b) l; Ok (Ar r)
      | Sc _, Ar m => do r <- mapm (fun c => minus_upto k a c) m; Ok (Ar r)
      | Ar l, Ar m =>
          if (length (shape b) <? length (shape a))%nat then do r <- mapm (fun c => minus_upto k c b) l; Ok (Ar r)
          else if (length (shape a) <? length (shape b))%nat then do r <- mapm (fun c => minus_upto k a c) m; Ok (Ar r)
          else if (length l =? length m)%nat then do r <- mapm (fun cd => minus_upto k (fst cd) (snd cd)) (combine l m); Ok (Ar r)
          else match l, m with
               | [c], _ => do r <- mapm (minus_upto k c) m; Ok (Ar r)
               | _, [d] => do r <- mapm (fun c => minus_upto k c d) l; Ok (Ar r)
               | _, _ => Err ValueError
               end
      end
  end.
Definition minus (a b : arr) : Res arr := minus_upto (length (shape a) + length (shape b)) a b.

Section Try.
Context {P : Type}.
(** pseudospectral.py:1461-1474 [try_array_f]: any exception of the first call
    is caught. *)
Definition try_array_f (f : arr -> arr -> arr -> P -> Res arr) (q v u : arr) (params : P) : Res arr :=
  match f q v u params with
  | Ok f_out => Ok f_out
  | Err _ =>
      do n <- shape0 q;
      do f_out <- mapm (fun ii =>
        do q_ii <- item q ii;
        do v_ii <- item v ii;
        do u_ii <- item u ii;
        do out <- f q_ii v_ii u_ii params;
        Ok (squeeze out)) (seq 0 n);
      array f_out
  end.
(** pseudospectral.py:1879-1881: the errors of dynamic_error_pseudospectral,
    from the interpolated arrays *)
Definition errors_of (f : arr -> arr -> arr -> P -> Res arr) (q q_d v v_d q_d_d u : arr) (params : P)
  : Res (arr * arr * arr) :=
  do err_q <- minus q_d v;
  do g_v <- try_array_f f q v u params;
  do err_v <- minus v_d g_v;
  do g_2 <- try_array_f f q q_d u params;
  do err_2 <- minus q_d_d g_2;
  Ok (err_q, err_v, err_2).
End Try.
