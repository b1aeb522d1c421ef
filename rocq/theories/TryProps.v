(** C99: the dynamics of one sample applied to arrays of samples.
    Specification: TrySpec.v. *)
From Verif Require Import Prelude TryModel TrySpec TryProofs.
Open Scope R_scope.
Open Scope list_scope.

(** ** C99  dynamics written for one sample *)

(** With any number of coordinates other than one: the result is the
    acceleration of each sample, exactly when the function, if it accepts the
    arrays, treats them sample by sample. *)
Theorem C99_exactly_partial :
  forall P (f : arr -> arr -> arr -> P -> Res arr) params g n q v u,
  length v = length q -> length u = length q -> n <> 1%nat -> one_sample f params g n q v u ->
  (try_array_f f (samples q) (samples v) (samples u) params = Ok (samples (accelerations g q v u)) <->
   forall o, f (samples q) (samples v) (samples u) params = Ok o -> o = samples (accelerations g q v u)).
Proof. exact @try_exactly. Qed.
Print Assumptions C99_exactly_partial.

(** The errors are then those of each sample. *)
Theorem C99_errors_partial :
  forall P (f : arr -> arr -> arr -> P -> Res arr) params g n N q q_d v v_d q_d_d u,
  n <> 1%nat -> length q = N -> wide n N q_d -> wide n N v -> wide n N v_d -> wide n N q_d_d -> length u = N ->
  one_sample f params g n q v u -> one_sample f params g n q q_d u ->
  (forall o, f (samples q) (samples v) (samples u) params = Ok o -> o = samples (accelerations g q v u)) ->
  (forall o, f (samples q) (samples q_d) (samples u) params = Ok o -> o = samples (accelerations g q q_d u)) ->
  errors_of f (samples q) (samples q_d) (samples v) (samples v_d) (samples q_d_d) (samples u) params =
  Ok (samples (rows_minus q_d v), samples (rows_minus v_d (accelerations g q v u)),
      samples (rows_minus q_d_d (accelerations g q q_d u))).
Proof. exact errors_rows. Qed.
Print Assumptions C99_errors_partial.
Example C99_errors_ex : forall q q_d v v_d q_d_d u N, (0 < N)%nat -> wide 2 N q -> wide 2 N q_d -> wide 2 N v ->
  wide 2 N v_d -> wide 2 N q_d_d -> length u = N ->
  errors_of pendulums (samples q) (samples q_d) (samples v) (samples v_d) (samples q_d_d) (samples u) tt =
  Ok (samples (rows_minus q_d v), samples (rows_minus v_d (accelerations falls q v u)),
      samples (rows_minus q_d_d (accelerations falls q q_d u))).
Proof.
  intros q q_d v v_d q_d_d u N HN [Lq Wq] H1 H2 H3 H4 H5.
  assert (Hq : q <> []) by (intros ->; cbn in Lq; lia).
  apply (errors_rows unit pendulums tt falls 2 N); auto using pendulums_sample.
  - intros o. now rewrite pendulums_raise.
  - intros o. now rewrite pendulums_raise.
Qed.

(** With one coordinate, a function that does not accept arrays gives a square
    array: the error of each sample against the acceleration of every sample. *)
Theorem C99_one_coordinate_refuted :
  forall P (f : arr -> arr -> arr -> P -> Res arr) params g N q q_d v v_d q_d_d u e1 e2,
  (0 < N)%nat -> length q = N -> wide 1 N q_d -> wide 1 N v -> wide 1 N v_d -> wide 1 N q_d_d -> length u = N ->
  one_sample f params g 1 q v u -> one_sample f params g 1 q q_d u ->
  f (samples q) (samples v) (samples u) params = Err e1 -> f (samples q) (samples q_d) (samples u) params = Err e2 ->
  errors_of f (samples q) (samples q_d) (samples v) (samples v_d) (samples q_d_d) (samples u) params =
  Ok (samples (rows_minus q_d v),
      samples (map (fun r => map (fun a => vnth r 0 - vnth a 0) (accelerations g q v u)) v_d),
      samples (map (fun r => map (fun a => vnth r 0 - vnth a 0) (accelerations g q q_d u)) q_d_d)).
Proof. exact errors_one. Qed.
Print Assumptions C99_one_coordinate_refuted.
Example C99_one_coordinate_ex : forall q q_d v v_d q_d_d u N, (0 < N)%nat -> wide 1 N q -> wide 1 N q_d -> wide 1 N v ->
  wide 1 N v_d -> wide 1 N q_d_d -> length u = N ->
  exists e e1 e2, errors_of pendulum (samples q) (samples q_d) (samples v) (samples v_d) (samples q_d_d) (samples u) tt =
    Ok (e, samples e1, e2) /\ wide N N e1.
Proof.
  intros q q_d v v_d q_d_d u N HN [Lq Wq] H1 H2 H3 H4 H5.
  assert (Hq : q <> []) by (intros ->; cbn in Lq; lia).
  do 3 eexists. split.
  - apply (errors_one unit pendulum tt fall N _ _ _ _ _ _ TypeError TypeError); auto using pendulum_sample;
      now apply pendulum_raise.
  - split; [now rewrite map_length; destruct H3|]. apply Forall_forall. intros r Hr. apply in_map_iff in Hr.
    destruct Hr as [x [<- _]]. now rewrite map_length, accelerations_length.
Qed.

(** A function of one sample that accepts arrays without treating them sample
    by sample gives a wrong result and no exception. *)
Theorem C99_silent_refuted :
  exists (f : arr -> arr -> arr -> unit -> Res arr) g,
  (forall q v u, Forall (fun r => length r = 2%nat) q -> one_sample f tt g 2 q v u) /\
  (forall q v u, (2 <= length q)%nat -> Forall (fun r => length r = 2%nat) q ->
     try_array_f f (samples q) (samples v) (samples u) tt = Ok (samples [nth 1 q []; nth 0 q []])) /\
  (forall q v u, (3 <= length q)%nat -> Forall (fun r => length r = 2%nat) q ->
     try_array_f f (samples q) (samples v) (samples u) tt <> Ok (samples (accelerations g q v u))).
Proof. exists exchange, exchanged. exact (conj exchange_sample (conj exchange_arrays exchange_wrong)). Qed.
Print Assumptions C99_silent_refuted.

(** Accelerations of different lengths are refused. *)
Theorem C99_ragged :
  forall P (f : arr -> arr -> arr -> P -> Res arr) params (g : vec -> vec -> vec -> vec) q v u e i j,
  let a k := g (nth k q []) (nth k v []) (nth k u []) in
  length v = length q -> length u = length q -> f (samples q) (samples v) (samples u) params = Err e ->
  (forall k, (k < length q)%nat -> length (a k) <> 1%nat /\
     exists o, f (row (nth k q [])) (row (nth k v [])) (row (nth k u [])) params = Ok o /\ In o (layouts (a k))) ->
  (i < length q)%nat -> (j < length q)%nat -> length (a i) <> length (a j) ->
  try_array_f f (samples q) (samples v) (samples u) params = Err ValueError.
Proof. exact @try_ragged. Qed.
Print Assumptions C99_ragged.
Example C99_ragged_ex : try_array_f (fun q _ _ _ => match q with Ar (Sc _ :: _) => Ok q | _ => Err TypeError end)
  (samples [[1; 2]; [1; 2; 3]]) (samples [[]; []]) (samples [[]; []]) tt = Err ValueError.
Proof.
  apply (C99_ragged unit _ tt (fun q _ _ => q) [[1; 2]; [1; 2; 3]] [[]; []] [[]; []] TypeError 0 1); cbn; try reflexivity; try lia.
  intros [|[|k]] Hk; [| |lia]; (split; [cbn; lia|]); eexists; (split; [reflexivity|now left]).
Qed.

(** When the arrays are not accepted, the exception of the first sample that
    raises one is passed on. *)
Theorem C99_raises :
  forall P (f : arr -> arr -> arr -> P -> Res arr) params q v u e i e',
  length v = length q -> length u = length q -> f (samples q) (samples v) (samples u) params = Err e ->
  (i < length q)%nat -> f (row (nth i q [])) (row (nth i v [])) (row (nth i u [])) params = Err e' ->
  (forall k, (k < i)%nat -> exists o, f (row (nth k q [])) (row (nth k v [])) (row (nth k u [])) params = Ok o) ->
  try_array_f f (samples q) (samples v) (samples u) params = Err e'.
Proof. exact @try_raises. Qed.
Print Assumptions C99_raises.
Example C99_raises_ex : try_array_f (fun q _ _ _ => match q with Ar [Sc _; _] => Ok q | Ar (Sc _ :: _) => Err ZeroDivisionError | _ => Err TypeError end)
  (samples [[1; 2]; [1; 2; 3]]) (samples [[]; []]) (samples [[]; []]) tt = Err ZeroDivisionError.
Proof.
  apply (C99_raises unit _ tt [[1; 2]; [1; 2; 3]] [[]; []] [[]; []] TypeError 1 ZeroDivisionError); cbn; try reflexivity; try lia.
  intros [|k] Hk; [|lia]. eexists; reflexivity.
Qed.
