(** Model of the interpolation drivers of chords/piecewise.py (1688-2496).
    Times and values are reals; [h > 0] is assumed by every theorem (with
    h = 0 Python divides by zero). *)
From Coq Require Import String.
From Verif Require Import Prelude PwModel SplineModel.
Open Scope R_scope.
Open Scope vec_scope.

(** Python's [sub in s] on strings. *)
Definition contains (sub s : string) : bool :=
  match index 0 sub s with Some _ => true | None => false end.
Definition mem (s : string) (l : list string) : bool := existsb (String.eqb s) l.

(** The entries of the [scheme_params] dictionary that the code reads or
    writes.  A key holding None is modelled as absent. *)
Record sparams := {
  sp_order : option nat;
  sp_x_dot_c : option (list vec);
  sp_x_c : option (list vec);
  sp_u_c : option (list vec) }.
Definition no_params : sparams := Build_sparams None None None None.

Definition getkey {A} (o : option A) : Res A :=
  match o with Some a => Ok a | None => Err KeyError end.

(** t // h and t % h for floats: floor division. *)
Definition seg_index (t h : R) : Z := Int_part (t / h).
Definition seg_tau (t h : R) : R := t - IZR (seg_index t h) * h.
Definition snap : R := / 100000000.

(** piecewise.py:1758-1793: the dispatch on the scheme name in [_newpoint]. *)
Definition interp_scheme (scheme : string) (sp : sparams) (n : Z)
  (x x_n xd xdn : vec) (tau h : R) : Res vec :=
  if (scheme =? "trapz_mod")%string then Ok (tz_interp 2 0 x x_n xd xdn tau h)
  else if (scheme =? "trapz")%string then Ok (tz_interp 1 0 x x_n xd xdn tau h)
  else if (scheme =? "trapz_n")%string then
    do order <- getkey (sp_order sp); Ok (tz_interp order 0 x x_n xd xdn tau h)
  else if mem scheme ["hs"%string; "hs_parab"%string] then
    do XC <- getkey (sp_x_dot_c sp); do xdc <- pyget XC n;
    Ok (hs_interp 1 0 x x_n xd xdn tau h xdc)
  else if mem scheme ["hs_mod"%string; "hs_mod_parab"%string] then
    do XC <- getkey (sp_x_dot_c sp); do xdc <- pyget XC n;
    Ok (hs_interp 2 0 x x_n xd xdn tau h xdc)
  else if mem scheme ["hsn"%string; "hsn_parab"%string] then
    do order <- getkey (sp_order sp);
    do XC <- getkey (sp_x_dot_c sp); do xdc <- pyget XC n;
    Ok (hs_interp order 0 x x_n xd xdn tau h xdc)
  else if mem scheme ["hsj"%string; "hsj_parab"%string] then
    do XC <- getkey (sp_x_dot_c sp); do xdc <- pyget XC n;
    Ok (hsj_interp x x_n xd xdn tau h xdc)
  else Err NameError.

(** piecewise.py:1747-1795 [_newpoint] *)
Definition newpoint (X Xd : list vec) (h t : R) (scheme : string) (sp : sparams) : Res vec :=
  let n := seg_index t h in
  let tau := seg_tau t h in
  if (Z.of_nat (length X) <? n + 1)%Z then Err ValueError
  else if Rlt_dec (Rabs tau) (h * snap) then pyget X n
  else if Rlt_dec (Rabs (tau - h)) (h * snap) then pyget X (n + 1)%Z
  else
    do x <- pyget X n; do x_n <- pyget X (n + 1)%Z;
    do xd <- pyget Xd n; do xdn <- pyget Xd (n + 1)%Z;
    interp_scheme scheme sp n x x_n xd xdn tau h.

(** piecewise.py:2344-2378: the dispatch of [_newpoint_der].  For the hsj
    schemes only orders 1 and 2 assign the result. *)
Definition interp_der_scheme (scheme : string) (order : nat) (sp : sparams) (n : Z)
  (x x_n xd xdn : vec) (tau h : R) : Res vec :=
  if (scheme =? "trapz")%string then Ok (tz_interp 1 order x x_n xd xdn tau h)
  else if (scheme =? "trapz_mod")%string then Ok (tz_interp 2 order x x_n xd xdn tau h)
  else if (scheme =? "trapz_n")%string then
    do osch <- getkey (sp_order sp); Ok (tz_interp osch order x x_n xd xdn tau h)
  else if mem scheme ["hs"%string; "hs_parab"%string] then
    do XC <- getkey (sp_x_dot_c sp); do xdc <- pyget XC n;
    Ok (hs_interp 1 order x x_n xd xdn tau h xdc)
  else if mem scheme ["hs_mod"%string; "hs_mod_parab"%string] then
    do XC <- getkey (sp_x_dot_c sp); do xdc <- pyget XC n;
    Ok (hs_interp 2 order x x_n xd xdn tau h xdc)
  else if mem scheme ["hsn"%string; "hsn_parab"%string] then
    do osch <- getkey (sp_order sp);
    do XC <- getkey (sp_x_dot_c sp); do xdc <- pyget XC n;
    Ok (hs_interp osch order x x_n xd xdn tau h xdc)
  else if mem scheme ["hsj"%string; "hsj_parab"%string] then
    do XC <- getkey (sp_x_dot_c sp); do xdc <- pyget XC n;
    if (order =? 1)%nat then Ok (hsj_dot_interp x x_n xd xdn tau h xdc)
    else if (order =? 2)%nat then Ok (hsj_dot_dot_interp x x_n xd xdn tau h xdc)
    else Err UnboundLocalError
  else Err NameError.

(** piecewise.py:2326-2379 [_newpoint_der] *)
Definition newpoint_der (X Xd : list vec) (h t : R) (scheme : string) (order : nat)
  (sp : sparams) : Res vec :=
  let '(n, tau) :=
    if Rlt_dec (Rabs (t - h * (INR (length X) - 1))) (h * snap)
    then ((Z.of_nat (length X) - 2)%Z, h)
    else (seg_index t h, seg_tau t h) in
  if (Z.of_nat (length X) <=? n + 1)%Z then Err ValueError
  else
    do x <- pyget X n; do x_n <- pyget X (n + 1)%Z;
    do xd <- pyget Xd n; do xdn <- pyget Xd (n + 1)%Z;
    interp_der_scheme scheme order sp n x x_n xd xdn tau h.

Section Controls.
  (** "min_err" (numerical minimisation) and "pinv_dyn" controls: any function
      of the time.  piecewise.py:1716-1740 *)
  Variable u_other : string -> R -> Res vec.

  (** piecewise.py:1688-1744 [_newpoint_u] *)
  Definition newpoint_u (U : list vec) (h t : R) (u_scheme : string) (sp : sparams) : Res vec :=
    let n := seg_index t h in
    let tau := seg_tau t h in
    if (Z.of_nat (length U) <? n + 1)%Z then Err ValueError
    else if Rlt_dec (Rabs tau) (h * snap) then pyget U n
    else if Rlt_dec (Rabs (tau - h)) (h * snap) then pyget U (n + 1)%Z
    else
      do u <- pyget U n; do u_n <- pyget U (n + 1)%Z;
      if (u_scheme =? "lin")%string then Ok (((h - tau) *v u +v tau *v u_n) /v h)
      else if (u_scheme =? "parab")%string then
        do UC <- getkey (sp_u_c sp); do u_c <- pyget UC n; Ok (interp_parab tau h u u_c u_n)
      else if (u_scheme =? "parab_j")%string then
        do UC <- getkey (sp_u_c sp); do u_c <- pyget UC n; Ok (interp_parab_j tau h u u_c u_n)
      else if mem u_scheme ["min_err"%string; "pinv_dyn"%string] then u_other u_scheme t
      else Err NameError.

  Fixpoint mapm {A B} (f : A -> Res B) (l : list A) : Res (list B) :=
    match l with
    | [] => Ok []
    | a :: l' => do b <- f a; do bs <- mapm f l'; Ok (b :: bs)
    end.

  (** numpy.interp at one time, for increasing sample times: constant
      outside, linear between consecutive samples. *)
  Fixpoint np_interp (t0 : R) (y0 : vec) (rest : list (R * vec)) (t : R) : vec :=
    match rest with
    | [] => y0
    | (t1, y1) :: rest' =>
        if Rle_dec t t0 then y0
        else if Rle_dec t t1 then y0 +v ((t - t0) / (t1 - t0)) *v (y1 -v y0)
        else np_interp t1 y1 rest' t
    end.
  Definition np_interp_rows (ts : list R) (Y : list vec) (t : R) : Res vec :=
    match combine ts Y with
    | [] => Err ValueError
    | (t0, y0) :: rest => Ok (np_interp t0 y0 rest t)
    end.

  (** piecewise.py:1818-1879 [interpolate_u]; U as rows. *)
  Definition interpolate_u (U : list vec) (old_t t_array : list R) (u_scheme : string)
    (sp : sparams) : Res (list vec) :=
    if (u_scheme =? "lin")%string then mapm (np_interp_rows old_t U) t_array
    else
      do tl <- pyget old_t (-1)%Z; do t0 <- pyget old_t 0%Z;
      let h := (tl - t0) / (INR (length old_t) - 1) in
      mapm (fun t => newpoint_u U h t u_scheme sp) t_array.

  (** piecewise.py:1798-1815 [_prepare_interp]: the extended U and the
      original times. Only the last entry of [t_array] is looked at. *)
  Definition prepare_interp (X U : list vec) (h : R) (t_array : list R)
    : Res (list vec * list R) :=
    do U' <- (if (length X =? length U + 1)%nat then extend_array U else Ok U);
    if negb (length X =? length U')%nat then Err ValueError
    else
      let old_t := map (fun i => INR i * h) (seq 0 (length X)) in
      do tl <- pyget t_array (-1)%Z;
      do ol <- pyget old_t (-1)%Z;
      if Rlt_dec (h / 1000000000) (tl - ol) then Err ValueError
      else Ok (U', old_t).

  Context {P : Type}.

  Definition midpoint_of (scheme : string) : vec -> vec -> vec -> vec -> R -> vec :=
    if contains "mod" scheme then hs_mod_midpoint
    else if contains "j" scheme then hsj_midpoint
    else hs_midpoint.

  (** piecewise.py:1882-1956 [_calculate_missing_arrays]: the state
      derivatives and the dictionary as the caller will see it afterwards.
      [F] is None or a function. *)
  Definition calculate_missing (X U : list vec) (h : R) (p : P)
    (F : option (vec -> vec -> P -> vec)) (Xd : option (list vec))
    (scheme u_scheme : string) (sp : sparams) : Res (list vec * sparams) :=
    do Xd <- match Xd, F with
             | Some d, _ => Ok d
             | None, None => Err ValueError
             | None, Some f => mapm (fun i => do x <- pyget X (Z.of_nat i);
                                              do u <- pyget U (Z.of_nat i); Ok (f x u p))
                                    (seq 0 (length X))
             end;
    if contains "hs" scheme && negb (scheme =? "hs_scipy")%string then
      match sp_x_dot_c sp with
      | Some _ => Ok (Xd, sp)
      | None =>
          do X_c <- match sp_x_c sp with
                    | Some c => Ok c
                    | None => mapm (fun i =>
                        do x <- pyget X (Z.of_nat i); do x_n <- pyget X (Z.of_nat (i + 1));
                        do xd <- pyget Xd (Z.of_nat i); do xdn <- pyget Xd (Z.of_nat (i + 1));
                        Ok (midpoint_of scheme x x_n xd xdn h))
                        (seq 0 (length X - 1))
                    end;
          let sp1 :=
            match sp_u_c sp with
            | None => if contains "parab" u_scheme then sp
                      else Build_sparams (sp_order sp) (sp_x_dot_c sp) (sp_x_c sp)
                        (Some (if contains "j" scheme
                               then map2 (fun a b => (6/10) *v a +v (4/10) *v b) (butlastn 1 U) (skipn 1 U)
                               else mid_controls U))
            | Some _ => sp
            end in
          do U_c <- getkey (sp_u_c sp1);
          do f <- match F with Some f => Ok f | None => Err TypeError end;
          do XDC <- mapm (fun i => do x <- pyget X_c (Z.of_nat i);
                                   do u <- pyget U_c (Z.of_nat i); Ok (f x u p))
                         (seq 0 (length X_c));
          Ok (Xd, Build_sparams (sp_order sp1) (Some XDC) (sp_x_c sp1) (sp_u_c sp1))
      end
    else Ok (Xd, sp).

  Definition supported_schemes : list string :=
    ["trapz"; "trapz_mod"; "trapz_n"; "hs"; "hs_scipy"; "hs_mod"; "hs_parab";
     "hs_mod_parab"; "hsj"; "hsj_parab"; "hsn"; "hsn_parab"]%string.
  Definition supported_u_schemes : list string :=
    ["lin"; "parab"; "parab_j"; "min_err"; "pinv_dyn"]%string.

  (** scipy's CubicHermiteSpline (scheme "hs_scipy"): any function. *)
  Variable hermite : list R -> list vec -> list vec -> R -> vec.

  (** piecewise.py:1959-2114 [interpolated_array]; [sp = None] is the default
      None, [Some d] a dictionary; the third component of the result is that
      dictionary after the call. *)
  Definition interpolated_array (X U : list vec) (h : R) (t_array : list R) (p : P)
    (F : option (vec -> vec -> P -> vec)) (Xd : option (list vec))
    (scheme u_scheme : string) (sp : option sparams)
    : Res (list vec * list vec * sparams) :=
    if negb (mem scheme supported_schemes) then Err ValueError
    else if negb (mem u_scheme supported_u_schemes) then Err ValueError
    else if contains "j" scheme && (u_scheme =? "parab")%string then Err ValueError
    else if contains "j" u_scheme && negb (contains "j" scheme) then Err ValueError
    else
      do _ <- (if contains "hsn" scheme || contains "trapz_n" scheme then
                 match sp with
                 | None => Err TypeError          (* "order" not in None *)
                 | Some d => match sp_order d with None => Err ValueError | Some _ => Ok tt end
                 end
               else Ok tt);
      let sp0 := match sp with None => no_params | Some d => d end in
      do (U', old_t) <- prepare_interp X U h t_array;
      do (Xd', sp1) <- calculate_missing X U' h p F Xd scheme u_scheme sp0;
      do _ <- match F with
              | None => if (u_scheme =? "min_err")%string then Err ValueError else Ok tt
              | Some _ => Ok tt
              end;
      do nU <- interpolate_u U' old_t t_array u_scheme sp1;
      if (scheme =? "hs_scipy")%string
      then Ok (map (hermite old_t X Xd') t_array, nU, sp1)
      else do nX <- mapm (fun t => newpoint X Xd' h t scheme sp1) t_array;
           Ok (nX, nU, sp1).

  (** piecewise.py:2484-2490: the branch "hs_scipy" of the derivatives.  Other
      orders leave the array of zeros. *)
  Definition spline_derivative (old_t : list R) (X Xd : list vec) (order : nat) (t_array : list R)
    : Res (list vec) :=
    do X_interp <- SplineModel.hermite old_t X Xd;
    let X_dot_interp := sp_derivative X_interp in
    Ok (if (order =? 1)%nat then map (sp_eval X_dot_interp) t_array
        else if (order =? 2)%nat then map (sp_eval (sp_derivative X_dot_interp)) t_array
        else map (fun _ => repeat 0 (length (hd [] X))) t_array).
  (** piecewise.py:2382-2496 [interpolated_array_derivative] *)
  Definition interpolated_array_derivative (X U : list vec) (h : R) (t_array : list R) (p : P)
    (F : option (vec -> vec -> P -> vec)) (Xd : option (list vec))
    (scheme : string) (order : nat) (sp : option sparams)
    : Res (list vec * sparams) :=
    if negb (mem scheme supported_schemes) then Err ValueError
    else
      let sp0 := match sp with None => no_params | Some d => d end in
      do (U', old_t) <- prepare_interp X U h t_array;
      do (Xd', sp1) <- calculate_missing X U' h p F Xd scheme "None" sp0;
      do nX <- (if (scheme =? "hs_scipy")%string then spline_derivative old_t X Xd' order t_array
                else mapm (fun t => newpoint_der X Xd' h t scheme order sp1) t_array);
      Ok (nX, sp1).
End Controls.

(** ** Which restriction belongs to which scheme name *)

(** The control used at the interior point when none is given:
    piecewise.py:604, 1137 and opti.py:2264-2278. *)
Definition default_u_c (scheme : string) (u u_n : vec) : vec :=
  if contains "j" scheme then (6 / 10) *v u +v (4 / 10) *v u_n else (u +v u_n) /v 2.

(** The function of piecewise.py:1046-1166 called "<scheme>_restr" (the
    schemes without "parab" are the same at the default interior control), and
    for "trapz_n" the order-M function of opti.py:2194 on the accelerations
    given by F.  [None] for other names. *)
Definition scheme_restr {P} (scheme : string) (M n : nat) (F : vec -> vec -> P -> vec)
  (x x_n u u_n : vec) (h : R) (p : P) (u_c : vec) : option vec :=
  if (scheme =? "trapz")%string then Some (trapz_restr F x x_n u u_n h p)
  else if (scheme =? "trapz_mod")%string then Some (trapz_mod_restr F x x_n u u_n h p)
  else if (scheme =? "trapz_n")%string then
    Some (trapz_m_accel_restr M x x_n (lastn n (F x u p)) (lastn n (F x_n u_n p)) h)
  else if mem scheme ["hs"%string; "hs_parab"%string] then Some (hs_parab_restr F x x_n u u_n h p u_c)
  else if mem scheme ["hs_mod"%string; "hs_mod_parab"%string] then
    Some (hs_mod_parab_restr F x x_n u u_n h p u_c)
  else if mem scheme ["hsj"%string; "hsj_parab"%string] then
    Some (hsj_parab_restr F x x_n u u_n h p u_c)
  else None.

(** Number of derivative blocks the interpolation of a scheme assumes:
    piecewise.py:1563-1660. *)
Definition scheme_blocks (scheme : string) (order : option nat) : option nat :=
  if mem scheme ["trapz"; "hs"; "hs_parab"]%string then Some 1%nat
  else if mem scheme ["trapz_mod"; "hs_mod"; "hs_mod_parab"; "hsj"; "hsj_parab"]%string then Some 2%nat
  else if (scheme =? "trapz_n")%string then order
  else None.

(** Where the interior collocation point of a scheme is, as a fraction of the
    step. *)
Definition scheme_interior (scheme : string) : option R :=
  if mem scheme ["hs"; "hs_parab"; "hs_mod"; "hs_mod_parab"]%string then Some (1 / 2)
  else if mem scheme ["hsj"; "hsj_parab"]%string then Some (2 / 5)
  else None.
