(** Property C101: the summaries of the errors of a result
    (chords/analysis.py:968-989).  Only statements; [increasing], [polyline]
    and [largest_abs] are in AnalysisTotSpec. *)
From Coquelicot Require Import Coquelicot.
From Verif Require Import Prelude Mat AnalysisModel AnalysisTotSpec AnalysisTotProofs.
Open Scope R_scope.
Open Scope list_scope.

(** Each total is the integral over time of the polyline through the absolute errors. *)
Theorem C101_integral :
  forall t x j w, increasing t -> length x = length t -> (0 < length t)%nat -> (j < mwidth x)%nat ->
  polyline t (map (fun r => Rabs (vnth r j)) x) w ->
  is_RInt w (vnth t 0) (vnth t (length t - 1)) (vnth (total_state_error t x) j).
Proof. exact (total_integral). Qed.
Print Assumptions C101_integral.

(** There is one total for each column. *)
Theorem C101_columns :
  forall t x, length (total_state_error t x) = mwidth x.
Proof. exact (total_width). Qed.
Print Assumptions C101_columns.

(** It is never less than the integral of the absolute value of the polyline through the errors. *)
Theorem C101_not_under :
  forall t x j w (I : R), increasing t -> length x = length t -> (0 < length t)%nat -> (j < mwidth x)%nat ->
  polyline t (map (fun r => vnth r j) x) w ->
  is_RInt (fun s => Rabs (w s)) (vnth t 0) (vnth t (length t - 1)) I -> I <= vnth (total_state_error t x) j.
Proof. exact (total_over). Qed.
Print Assumptions C101_not_under.

(** It is zero only if all the errors of the column are. *)
Theorem C101_zero :
  forall t x j, increasing t -> length x = length t -> (2 <= length t)%nat -> (j < mwidth x)%nat ->
  0 <= vnth (total_state_error t x) j /\
  (vnth (total_state_error t x) j = 0 <-> forall i, (i < length x)%nat -> vnth (nth i x []) j = 0).
Proof. exact (total_zero). Qed.
Print Assumptions C101_zero.

(** It is at most a bound of the absolute errors times the duration. *)
Theorem C101_bound :
  forall t x j m, increasing t -> length x = length t -> (0 < length t)%nat -> (j < mwidth x)%nat ->
  (forall i, (i < length x)%nat -> Rabs (vnth (nth i x []) j) <= m) ->
  vnth (total_state_error t x) j <= m * (vnth t (length t - 1) - vnth t 0).
Proof. exact (total_bound). Qed.
Print Assumptions C101_bound.

(** The totals of two runs that share a sample add up to the total of the whole. *)
Theorem C101_additive :
  forall c t1 s t2 x1 (a : vec) x2 j, length x1 = length t1 -> length x2 = length t2 ->
  (forall r, In r (x1 ++ a :: x2) -> length r = c) -> (j < c)%nat ->
  vnth (total_state_error (t1 ++ s :: t2) (x1 ++ a :: x2)) j =
  vnth (total_state_error (t1 ++ [s]) (x1 ++ [a])) j + vnth (total_state_error (s :: t2) (a :: x2)) j.
Proof. exact (total_split). Qed.
Print Assumptions C101_additive.

(** arr_sum adds the absolute values of each row. *)
Theorem C101_sum :
  forall x, length (arr_sum x) = length x /\
  forall i, (i < length x)%nat -> vnth (arr_sum x) i = vsum (map Rabs (nth i x [])).
Proof. exact (AnalysisPwProofs.arr_sum_ok). Qed.
Print Assumptions C101_sum.

(** arr_max is the largest absolute value of each row ... *)
Theorem C101_max :
  forall x, (forall r, In r x -> r <> []) ->
  exists m, arr_max x = Ok m /\ length m = length x /\ forall i, (i < length x)%nat -> largest_abs (nth i x []) (vnth m i).
Proof. exact (row_max). Qed.
Print Assumptions C101_max.

(** ... and refuses rows without entries. *)
Theorem C101_max_empty :
  forall x, In [] x -> arr_max x = Err ValueError.
Proof. exact (row_max_empty). Qed.
Print Assumptions C101_max_empty.

(** The three summaries of a row: maximum <= norm <= sum <= columns * maximum. *)
Theorem C101_order :
  forall x m i, arr_max x = Ok m -> (i < length x)%nat ->
  vnth m i <= vnth (arr_mod x) i /\ vnth (arr_mod x) i <= vnth (arr_sum x) i /\
  vnth (arr_sum x) i <= INR (length (nth i x [])) * vnth m i.
Proof. exact (row_order). Qed.
Print Assumptions C101_order.

(** The hypothesis on w is met whatever the errors. *)
Example C101_polylines :
  forall t y, increasing t -> length y = length t -> exists w, polyline t y w.
Proof. exact (polyline_exists). Qed.

Example C101_example :
  increasing [0; 1; 3] /\ total_state_error [0; 1; 3] [[1; -2]; [-3; 0]; [0; 4]] = [5; 5] /\
  arr_sum [[1; -2]; [-3; 0]] = [3; 3] /\ arr_max [[1; -2]; [-3; 0]] = Ok [2; 3].
Proof. exact (total_example). Qed.
