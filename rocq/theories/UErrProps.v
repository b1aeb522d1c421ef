(** C95: interpolated controls that explain the motion.  Only statements.  The
    states have [n] coordinates and their [n] speeds. *)
From Coq Require Import String.
From Verif Require Import Prelude PwModel PwInterpModel PwInterpSpec PwSpec UErrModel UErrSpec UErrProofs.
Open Scope string_scope.
Open Scope list_scope.
Open Scope R_scope.

(** "min_err": between samples, what the minimiser makes of the accelerations
    that stay unexplained, from the straight line between the controls. *)
Theorem C95_min_err :
  forall {P : Type} minimize hermite (F : vec -> vec -> P -> vec) p n,
  (forall x u, length x = (2 * n)%nat -> length (F x u p) = (2 * n)%nat) ->
  forall X U h Xd scheme sp, 0 < h -> (2 <= length X)%nat -> scheme <> "hs_scipy" ->
  forall pinv ts nX nU sp' nX' sp'',
  interpolated_array_u minimize hermite X U h ts p (Some F) Xd scheme "min_err" sp pinv = Ok (nX, nU, sp') ->
  interpolated_array_derivative X U h ts p (Some F) Xd scheme 1 sp = Ok (nX', sp'') ->
  Forall (fun x => length x = (2 * n)%nat) nX -> Forall (fun x => length x = (2 * n)%nat) nX' ->
  forall k i, (k < length ts)%nat -> (i + 1 < length X)%nat -> inside h i (nth k ts 0) ->
    nth k nU [] = minimize (unexplained n F p (nth k nX []) (nth k nX' []))
      (line_control (nth i (full_controls X U) []) (nth (i + 1) (full_controls X U) []) ((nth k ts 0 - INR i * h) / h)).
Proof. exact (@min_err_value). Qed.
Print Assumptions C95_min_err.

(** So it never explains less than the straight line. *)
Theorem C95_min_err_descends :
  forall {P : Type} minimize hermite (F : vec -> vec -> P -> vec) p n, descends minimize ->
  (forall x u, length x = (2 * n)%nat -> length (F x u p) = (2 * n)%nat) ->
  forall X U h Xd scheme sp, 0 < h -> (2 <= length X)%nat -> scheme <> "hs_scipy" ->
  forall pinv ts nX nU sp' nX' sp'',
  interpolated_array_u minimize hermite X U h ts p (Some F) Xd scheme "min_err" sp pinv = Ok (nX, nU, sp') ->
  interpolated_array_derivative X U h ts p (Some F) Xd scheme 1 sp = Ok (nX', sp'') ->
  Forall (fun x => length x = (2 * n)%nat) nX -> Forall (fun x => length x = (2 * n)%nat) nX' ->
  forall k i, (k < length ts)%nat -> (i + 1 < length X)%nat -> inside h i (nth k ts 0) ->
    unexplained n F p (nth k nX []) (nth k nX' []) (nth k nU []) <=
    unexplained n F p (nth k nX []) (nth k nX' [])
      (line_control (nth i (full_controls X U) []) (nth (i + 1) (full_controls X U) []) ((nth k ts 0 - INR i * h) / h)).
Proof. exact (@min_err_descends). Qed.
Print Assumptions C95_min_err_descends.

(** "pinv_dyn": if the function given answers with a control of the dynamics
    for the acceleration asked for, everything is explained. *)
Theorem C95_pinv_dyn :
  forall {P : Type} minimize hermite (F : vec -> vec -> P -> vec) p n,
  (forall x u, length x = (2 * n)%nat -> length (F x u p) = (2 * n)%nat) ->
  forall pinv, (forall q v a, length q = n -> length v = n -> length a = n -> skipn n (F (q ++ v) (pinv q v a p) p) = a) ->
  forall X U h Xd scheme sp, 0 < h -> (2 <= length X)%nat -> scheme <> "hs_scipy" ->
  forall ts nX nU sp' nX' sp'',
  interpolated_array_u minimize hermite X U h ts p (Some F) Xd scheme "pinv_dyn" sp (Some pinv) = Ok (nX, nU, sp') ->
  interpolated_array_derivative X U h ts p (Some F) Xd scheme 1 sp = Ok (nX', sp'') ->
  Forall (fun x => length x = (2 * n)%nat) nX -> Forall (fun x => length x = (2 * n)%nat) nX' ->
  forall k i, (k < length ts)%nat -> (i + 1 < length X)%nat -> inside h i (nth k ts 0) ->
    unexplained n F p (nth k nX []) (nth k nX' []) (nth k nU []) = 0.
Proof. exact (@pinv_explains). Qed.
Print Assumptions C95_pinv_dyn.

(** At the times of the samples, the samples. *)
Theorem C95_samples :
  forall {P : Type} minimize hermite (F : vec -> vec -> P -> vec) p X U h Xd scheme sp,
  0 < h -> (2 <= length X)%nat -> scheme <> "hs_scipy" ->
  forall us pinv ts nX nU sp' nX' sp'', In us ["min_err"; "pinv_dyn"] ->
  interpolated_array_u minimize hermite X U h ts p (Some F) Xd scheme us sp pinv = Ok (nX, nU, sp') ->
  interpolated_array_derivative X U h ts p (Some F) Xd scheme 1 sp = Ok (nX', sp'') ->
  length nU = length ts /\ forall k i, (k < length ts)%nat -> (i < length X)%nat -> on_sample h i (nth k ts 0) ->
    nth k nU [] = nth i (full_controls X U) [].
Proof. exact (@samples_kept). Qed.
Print Assumptions C95_samples.

(** Both calls return, for every scheme but hs_scipy and times in the horizon. *)
Theorem C95_returns :
  forall {P : Type} minimize hermite (F : vec -> vec -> P -> vec) p scheme M h X U ts sp us pinv,
  In us ["min_err"; "pinv_dyn"] ->
  scheme_blocks scheme (sp_order sp) = Some M -> 0 < h -> (2 <= length X)%nat ->
  (length U = length X \/ length X = (length U + 1)%nat) ->
  sp_x_dot_c sp = None -> sp_x_c sp = None ->
  (forall c, sp_u_c sp = Some c -> (length X <= length c + 1)%nat) ->
  ts <> [] -> (forall t, In t ts -> 0 <= t <= (INR (length X) - 1) * h) ->
  exists nX nU sp' nX' sp'', interpolated_array_u minimize hermite X U h ts p (Some F) None scheme us (Some sp) (Some pinv) = Ok (nX, nU, sp') /\
    interpolated_array_derivative X U h ts p (Some F) None scheme 1 (Some sp) = Ok (nX', sp'').
Proof. exact (@explaining_returns). Qed.
Print Assumptions C95_returns.

(** A mass that is pushed; a minimiser that descends; an inverse. *)
Example C95_hypotheses :
  descends two_tries /\ (forall x u, length x = (2 * 1)%nat -> length (push x u tt) = (2 * 1)%nat) /\
  (forall q v a, length q = 1%nat -> length v = 1%nat -> length a = 1%nat -> skipn 1 (push (q ++ v) (push_inv q v a tt) tt) = a) /\
  exists nX nU sp' nX' sp'', interpolated_array_u two_tries (fun _ _ _ _ => []) [[0; 0]; [0; 1]; [1; 2]] [[1]; [0]] 1 [1 / 2; 3 / 2] tt (Some push) None "trapz_mod" "min_err" (Some no_params) (Some push_inv) = Ok (nX, nU, sp') /\
    interpolated_array_derivative [[0; 0]; [0; 1]; [1; 2]] [[1]; [0]] 1 [1 / 2; 3 / 2] tt (Some push) None "trapz_mod" 1 (Some no_params) = Ok (nX', sp'') /\
    Forall (fun x => length x = (2 * 1)%nat) nX /\ Forall (fun x => length x = (2 * 1)%nat) nX' /\ inside 1 1 (3 / 2).
Proof. exact (push_case). Qed.
Print Assumptions C95_hypotheses.

(** The sample 0 explains nothing of the acceleration 1 of the motion. *)
Theorem C95_samples_refuted :
  forall minimize hermite pinv,
  interpolated_array_u minimize hermite [[0; 0]; [0; 0]] [[0]; [0]] 1 [0] tt (Some push) (Some [[0; 1]; [0; 1]]) "trapz_mod" "min_err" None pinv
    = Ok ([[0; 0]], [[0]], no_params) /\
  interpolated_array_derivative [[0; 0]; [0; 0]] [[0]; [0]] 1 [0] tt (Some push) (Some [[0; 1]; [0; 1]]) "trapz_mod" 1 None = Ok ([[0; 1]], no_params) /\
  unexplained 1 push tt [0; 0] [0; 1] [0] = 1 /\ unexplained 1 push tt [0; 0] [0; 1] [1] = 0.
Proof. exact (sample_unexplained). Qed.
Print Assumptions C95_samples_refuted.

(** The default scheme has no answer between samples. *)
Theorem C95_default_refuted :
  forall {P : Type} minimize hermite (F : vec -> vec -> P -> vec) p h X U ts Xd us sp pinv r k i,
  0 < h -> (2 <= length X)%nat -> In us ["min_err"; "pinv_dyn"] ->
  (k < length ts)%nat -> (i + 1 < length X)%nat -> inside h i (nth k ts 0) ->
  interpolated_array_u minimize hermite X U h ts p (Some F) Xd "hs_scipy" us sp pinv = Ok r -> False.
Proof. exact (@scipy_never). Qed.
Print Assumptions C95_default_refuted.
