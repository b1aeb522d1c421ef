(** Specification vocabulary for the adaptive refinement. *)
From Coq Require Import String ZArith.
From Verif Require Import Prelude PolyInterp PsModel UtilModel AdaptModel.
Open Scope R_scope.
Open Scope list_scope.

Definition total (l : list Z) : Z := fold_right Z.add 0%Z l.

(** A segment from [a] to [b] that needs [n] points becomes segments of equal
    length that end at [ks] with [ps] points: itself if n is at most [max_p],
    otherwise the least number of segments with at most [max_p] points, all
    with the least number of points that is enough, or with [min_p]. *)
Definition split_of (min_p max_p n : Z) (a b : R) (ks : list R) (ps : list Z) : Prop :=
  let d := length ps in
  (1 <= d)%nat /\ length ks = d /\
  (forall i, (i < d)%nat -> vnth ks i = a + INR (i + 1) * ((b - a) / INR d)) /\
  (n <= total ps)%Z /\
  ((n <= max_p)%Z -> ps = [n]) /\
  ((max_p < n)%Z -> exists c, ps = repeat c d /\ ((Z.of_nat d - 1) * max_p < n <= Z.of_nat d * max_p)%Z /\
     (min_p <= c)%Z /\ (c = min_p \/ ((c - 1) * Z.of_nat d < n <= c * Z.of_nat d)%Z)).

(** x is the largest number of l *)
Definition is_max (l : list R) (x : R) : Prop := In x l /\ forall y, In y l -> y <= x.

(** ** The history of a refinement *)
Section History.
Variable undef : R -> Z -> Z.
Context {result : Type}.
Variable problem : nat -> Z -> vec -> list Z -> Res result.
Variable res_t_knot_ext : result -> vec.
Variable res_point_structure : result -> list Z.
Variable errors : result -> Res vec.
Variables (min_p max_p max_coll_points : Z) (epsilon : R).

(** The results of the attempts that were solved, in order. *)
Fixpoint results (tr : list (@attempt result)) : list result :=
  match tr with [] => [] | Failed _ _ :: tr' => results tr' | Solved _ _ r _ :: tr' => r :: results tr' end.
(** Attempt number [i] is what [problem] did with its structure. *)
Definition happened (i : nat) (a : @attempt result) : Prop :=
  match a with
  | Failed k p => problem i (total p) k p = Err RuntimeError
  | Solved k p r e => problem i (total p) k p = Ok r /\ errors r = Ok e
  end.
(** The structure of the attempt after [a]: one more point in each segment, or
    the structure computed from the errors. *)
Definition next (a : @attempt result) (knots : vec) (p : list Z) : Prop :=
  match a with
  | Failed k q => knots = k /\ p = map (Z.add 1) q
  | Solved k q r e => calc_new_struct min_p max_p q (add_points undef epsilon e (res_point_structure r)) (res_t_knot_ext r) = Ok (knots, p)
  end.
(** The loop goes on: the attempt failed, or the largest error is not below
    the tolerance and the next structure has not too many points. *)
Definition goes_on (a : @attempt result) : Prop :=
  match a with
  | Failed _ _ => True
  | Solved _ _ _ e => exists m knots p, is_max e m /\ epsilon <= m /\ next a knots p /\ (total p <= max_coll_points)%Z
  end.
(** It stops: the opposite. *)
Definition stops (a : @attempt result) : Prop :=
  match a with
  | Failed _ _ => False
  | Solved _ _ _ e => exists m, is_max e m /\ (m < epsilon \/ exists knots p, next a knots p /\ (max_coll_points < total p)%Z)
  end.
(** The attempts of a refinement that may make [k] attempts, numbered from
    [iter], the first with the structure [knots], [p]. *)
Definition history (k iter : nat) (knots : vec) (p : list Z) (tr : list (@attempt result)) : Prop :=
  (length tr <= k)%nat /\
  (forall a tr', tr = a :: tr' -> att_knots a = knots /\ att_p a = p) /\
  (forall i d, (i < length tr)%nat -> happened (iter + i) (nth i tr d)) /\
  (forall i d, (i + 1 < length tr)%nat -> goes_on (nth i tr d) /\ next (nth i tr d) (att_knots (nth (i + 1) tr d)) (att_p (nth (i + 1) tr d))) /\
  (forall d, (length tr < k)%nat -> tr <> [] -> stops (last tr d)).
End History.

(** ** Errors of each segment *)
(** The test points of a segment with n points are the n + 1 points of the
    scheme, in that segment. *)
Definition test_points_are (rr : list R -> list R) (scheme : string) (K : list R) (ns : list nat) (pts : list vec) : Prop :=
  length pts = length ns /\
  forall s, (s < length ns)%nat -> exists c, coll_points rr (S (nth s ns 0%nat)) scheme 2 = Ok c /\ length c = S (nth s ns 0%nat) /\
    nth s pts [] = tau_to_t_points c (vnth K s) (vnth K (s + 1)).
(** Block s of the errors has one error for each test point of segment s,
    [D s t] at time t. *)
Definition blocks_are (ns : list nat) (pts : list vec) (D : nat -> R -> vec) (errs : list (list vec)) : Prop :=
  length errs = length ns /\ forall s, (s < length ns)%nat -> nth s errs [] = map (D s) (nth s pts []).
(** [m] has for each segment the largest error divided by one plus the largest
    component of q, in absolute value, at the test points. *)
Definition maxima_are (ns : list nat) (pts : list vec) (Q : nat -> R -> vec) (errs : list (list vec)) (m : vec) : Prop :=
  length m = length ns /\ forall s, (s < length ns)%nat -> exists me mq,
    is_max (map Rabs (concat (nth s errs []))) me /\ is_max (map Rabs (concat (map (Q s) (nth s pts [])))) mq /\
    vnth m s = me / (1 + mq).
