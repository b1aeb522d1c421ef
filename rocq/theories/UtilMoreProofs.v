(** Corollaries about the quadratures and the integration matrices, in the form
    used by the property statements. *)
From Coq Require Import String.
From Coquelicot Require Import Coquelicot.
From Verif Require Import Prelude PreludeFacts Poly PolyFacts PolyInterp Mat MatFacts
  PwInterpModel PsModel JacobiFacts PsSpec PsPointsProofs PsBaryProofs PsNodesProofs PsProblemProofs PsApplyProofs PsFinalProofs
  UtilModel UtilSpec GaussFacts UtilProofs BuTdModel BuTdSpec BuTdFacts BuTdProofs BuTdApplyProofs.
Open Scope R_scope.
Open Scope vec_scope.
Open Scope list_scope.

Section Lg.
Variable lg : nat -> vec * vec.
Hypothesis LGOK : leggauss_ok lg.

Lemma gauss_example : (forall x, x * x * x = peval [0; 0; 0; 1] x) /\ gauss_integral lg (fun x => x * x * x) 2 1 3 = 20.
Proof.
  assert (A : forall x, x * x * x = peval [0; 0; 0; 1] x) by (intros x; simpl; ring).
  split; [exact A|]. rewrite (gauss_integral_exact lg LGOK _ [0; 0; 0; 1] 2 1 3 ltac:(lia) A) by (simpl; lia).
  apply is_RInt_unique.
  replace 20 with (3 ^ 4 / 4 - 1 ^ 4 / 4) by field.
  apply (is_RInt_ext (fun x => x ^ 3)). { intros x _. rewrite <- A. simpl. ring. }
  apply (is_RInt_derive (fun x => x ^ 4 / 4) (fun x => x ^ 3)).
  - intros x _. auto_derive; [trivial|]. simpl. field.
  - intros x _. apply (ex_derive_continuous (fun x => x ^ 3)). auto_derive. trivial.
Qed.

Lemma poly_integral_2d_values f cs n_pol t0 t1 y0 t : t0 <> t1 -> (1 <= length cs)%nat ->
  poly_fun (n_pol + 1) f cs -> length y0 = length cs ->
  exists F, poly_integral_2d lg f n_pol t0 t1 y0 = Ok F /\ F t = y0 +v map (fun c => RInt (peval c) t0 t) cs.
Proof.
  intros T L PF LY. destruct (poly_integral_2d_exact lg LGOK f cs n_pol t0 t1 y0 T L PF LY) as (F & E & _ & V).
  exists F. split; [exact E|]. rewrite V. unfold antiderivs, state_at, vadd. clear - LY. revert y0 LY.
  induction cs as [|c cs IH]; intros [|y y0] LY; simpl in LY; try discriminate; [reflexivity|].
  cbn [map2 map]. rewrite IH by lia. f_equal. apply pint_at_RInt.
Qed.
Lemma poly_integral_2d_scalar f cs n_pol t0 t1 y t : t0 <> t1 -> (1 <= length cs)%nat ->
  poly_fun (n_pol + 1) f cs ->
  exists F, poly_integral_2d lg f n_pol t0 t1 [y] = Ok F /\ F t = map (fun c => y + RInt (peval c) t0 t) cs.
Proof.
  intros T L PF. rewrite (poly_integral_2d_broadcast lg f cs n_pol t0 t1 y L (proj2 PF)).
  destruct (poly_integral_2d_values f cs n_pol t0 t1 (repeat y (length cs)) t T L PF (repeat_length _ _)) as (F & E & V).
  exists F. split; [exact E|]. rewrite V. clear. unfold vadd. induction cs as [|c cs IH]; [reflexivity|]. cbn [length repeat map map2]. f_equal. exact IH.
Qed.
Lemma get_weights_x_full rr N s order tx : x_points rr N s = Ok tx -> length tx = N -> NoDup tx -> (1 <= N)%nat ->
  exists w, get_weights rr lg N s order "x" = Ok w /\ quad_exact N tx w /\ vsum w = 2.
Proof.
  intros E L ND HN. destruct (get_weights_x_ok rr lg LGOK N s order tx E L ND HN) as (w & A & B).
  exists w. split; [exact A|]. split; [exact B|]. exact (quad_exact_sum N tx w HN B).
Qed.
End Lg.

Lemma get_weights_mode rr lg N s order mode : mode <> "u"%string -> mode <> "x"%string ->
  get_weights rr lg N s order mode = Err ValueError.
Proof. intros A B. unfold get_weights. destruct (String.eqb_spec mode "u"); [contradiction|]. destruct (String.eqb_spec mode "x"); [contradiction|reflexivity]. Qed.

Section Both.
Variable rr : list R -> list R.
Hypothesis OK : real_roots_ok rr.
Variable lg : nat -> vec * vec.
Hypothesis LGOK : leggauss_ok lg.

Lemma get_weights_u_full N s order : In s all_schemes -> enough_points s N ->
  exists tc w, coll_points rr N s order = Ok tc /\ get_weights rr lg N s order "u" = Ok w /\
    length tc = N /\ quad_exact N tc w /\ vsum w = 2 /\ (s = "LG"%string -> quad_exact (2 * N) tc w).
Proof.
  intros H E. destruct (get_weights_u_ok rr lg OK LGOK N s order H E) as (tc & w & A & B & C & D & F).
  exists tc, w. repeat (split; [assumption|]). split; [|exact F].
  apply (quad_exact_sum N tc w); [|exact D]. destruct E as [E _]. exact E.
Qed.
Lemma x_points_all s n : In s all_schemes -> enough_points s n ->
  exists c, coll_points rr n s 2 = Ok (with_ends (starts s) (ends s) c) /\
    inner_set (n - b2n (starts s) - b2n (ends s)) c /\
    x_points rr (2 + length c) s = Ok (with_ends true true c).
Proof.
  intros H E. destruct (nodes_shape rr OK s n H E) as (c & S & Ec & En & Ep).
  exists c. split; [exact Ec|]. split; [exact S|].
  assert (L : length c = (n - b2n (starts s) - b2n (ends s))%nat) by apply S.
  assert (EL : nodes_of s n = (b2n (nstarts s) + length c + b2n (nends s))%nat) by (unfold nodes_of; lia).
  unfold x_points. revert En Ep EL. clear -H. intros En Ep.
  scheme_cases H; cbn [mem existsb gauss_like gauss_inv String.eqb Ascii.eqb Bool.eqb orb] ; intros EL;
    cbn [b2n nstarts nends mem existsb String.eqb Ascii.eqb Bool.eqb orb] in EL.
  all: try (match goal with |- context [node_points rr ?a ?b] => replace a with (nodes_of b n) by (cbn in EL |- *; lia) end; rewrite Ep; cbn; try rewrite app_nil_r; reflexivity).
Qed.
Lemma x_weights_all n s order : In s all_schemes -> enough_points s n ->
  exists N tx w, x_points rr N s = Ok tx /\ length tx = N /\ increasing tx /\ vnth tx 0 = -1 /\ vnth tx (N - 1) = 1 /\
    (forall cl, coll_points rr n s 2 = Ok cl -> incl cl tx) /\
    get_weights rr lg N s order "x" = Ok w /\ quad_exact N tx w.
Proof.
  intros H E. destruct (x_points_all s n H E) as (c & Ec & IS & X).
  exists (2 + length c)%nat, (with_ends true true c).
  assert (L : length (with_ends true true c) = (2 + length c)%nat) by (rewrite with_ends_length; cbn; lia).
  assert (I : increasing (with_ends true true c)) by exact (with_ends_incr _ _ _ _ IS).
  destruct (get_weights_x_ok rr lg LGOK (2 + length c) s order _ X L (increasing_NoDup _ I) ltac:(lia)) as (w & A & B).
  exists w. split; [exact X|]. split; [exact L|]. split; [exact I|]. split; [reflexivity|].
  split. { unfold with_ends, vnth. cbn [app]. replace (2 + length c - 1)%nat with (S (length c)) by lia. cbn [nth].
    rewrite app_nth2 by lia. now rewrite Nat.sub_diag. }
  split; [|split; [exact A|exact B]].
  intros cl E'. rewrite Ec in E'. injection E' as <-. intros x Hx. unfold with_ends in *.
  apply in_app_iff in Hx. destruct Hx as [Hx|Hx]; [apply in_app_iff; left; destruct (starts s); [exact Hx|destruct Hx]|].
  apply in_app_iff. right. apply in_app_iff in Hx. apply in_app_iff. destruct Hx as [Hx|Hx]; [now left|]. right. destruct (ends s); [exact Hx|destruct Hx].
Qed.
Lemma LG_weights_pos N w i : (1 <= N)%nat -> (i < N)%nat -> get_weights rr lg N "LG" 2 "u" = Ok w -> 0 < vnth w i.
Proof. intros HN Hi E. injection E as <-. exact (gauss_weight_pos N _ _ i (LGOK N HN) Hi). Qed.

Lemma Lag_integ_2d_values s N order k : In s all_schemes -> enough_points s N ->
  exists tc f, coll_points rr N s order = Ok tc /\ Lag_integ_2d rr lg N s k order = Ok f /\
    forall t, length (f t) = N /\
      forall i c, (i < N)%nat -> interpolates tc (map (fun j => if (j =? i)%nat then 1 else 0) (seq 0 N)) c ->
        vnth (f t) i = rep_RInt k (peval c) (-1) t.
Proof.
  intros H E. destruct (coll_points_ok rr OK s N order H E) as (tc & Ec & L & I & _).
  assert (ND := increasing_NoDup _ I). assert (HN : (1 <= N)%nat) by apply E.
  destruct (Lag_integ_2d_ok rr lg LGOK N s order tc k Ec L ND HN) as (f & Ef & _ & V).
  exists tc, f. split; [exact Ec|]. split; [exact Ef|]. intros t. rewrite V.
  assert (LL : length (map (pint_n k (-1)) (lagrs tc)) = N) by now rewrite map_length, lagrs_length.
  split; [unfold state_at; now rewrite map_length|].
  intros i c Hi IC. rewrite vnth_state_at by (rewrite LL; exact Hi).
  rewrite (nth_map' _ _ _ []) by (rewrite lagrs_length, L; exact Hi).
  rewrite nth_lagrs by (rewrite L; exact Hi).
  rewrite rep_RInt_pint. apply pint_n_ext. intros x.
  apply (interpolates_unique tc (map (fun j => if (j =? i)%nat then 1 else 0) (seq 0 N)) _ _ ND); [|exact IC].
  rewrite <- L. apply unit_interp; [exact ND|rewrite L; exact Hi].
Qed.

(** Any initial values and accelerations are those of a polynomial. *)
Lemma Integration_Matrix_data s N P M t0 tf : In s bt_schemes -> enough_points s N -> bu_sized s N -> (P < M)%nat -> t0 <> tf ->
  exists tc tx A, BU_coll_points rr N s M = Ok tc /\ BU_construction_points rr N s M = Ok tx /\
    Integration_Matrix rr lg N s P (tf - t0) M = Ok A /\
    forall x0 acc, length x0 = M -> length acc = N ->
      exists c, (length c <= N + M)%nat /\ (forall k, (k < M)%nat -> Derive_n (peval c) k t0 = vnth x0 k) /\
        (forall j, (j < N)%nat -> Derive_n (peval c) M (tau_to_t (vnth tc j) t0 tf) = vnth acc j) /\
        forall i, (i < length tx)%nat -> vdot (mrow i A) (x0 ++ acc) = Derive_n (peval c) P (tau_to_t (vnth tx i) t0 tf).
Proof.
  intros H E B HP T. destruct (Integration_Matrix_exact rr OK lg LGOK s N P M t0 tf H E B HP) as (tc & tx & A & Ec & Ex & EA & SA & X).
  exists tc, tx, A. split; [exact Ec|]. split; [exact Ex|]. split; [exact EA|]. intros x0 acc L0 La.
  rewrite BU_coll_points_eq in Ec by exact H.
  destruct (coll_points_ok rr OK s N M (bt_all s H) E) as (c' & E' & L & I & _). assert (c' = tc) by congruence. subst c'.
  assert (ND : NoDup (tau_to_t_points tc t0 tf)) by (apply times_NoDup; [exact T|now apply increasing_NoDup]).
  assert (Lt : length (tau_to_t_points tc t0 tf) = N) by (unfold tau_to_t_points; now rewrite map_length).
  destruct (lagr_interp_ok (tau_to_t_points tc t0 tf) acc ND) as [LB VB].
  set (a := lagr_interp (tau_to_t_points tc t0 tf) acc) in *.
  set (c := tay t0 x0 a).
  assert (Lc : length c = (M + length a)%nat) by (unfold c; now rewrite tay_length, L0).
  assert (D0 : forall k, (k < M)%nat -> Derive_n (peval c) k t0 = vnth x0 k).
  { intros k Hk. rewrite Derive_n_peval. apply tay_val. lia. }
  assert (DM : forall x, Derive_n (peval c) M x = peval a x).
  { intros x. rewrite Derive_n_peval, <- L0. apply tay_top. }
  exists c. split; [rewrite Lc; lia|]. split; [exact D0|].
  assert (DA : forall j, (j < N)%nat -> Derive_n (peval c) M (tau_to_t (vnth tc j) t0 tf) = vnth acc j).
  { intros j Hj. rewrite DM. rewrite <- VB by (rewrite Lt; exact Hj). f_equal.
    unfold tau_to_t_points, vnth. now rewrite (nth_map' _ _ _ 0) by (rewrite L; exact Hj). }
  split; [exact DA|]. intros i Hi. rewrite <- X; [|rewrite Lc; lia|exact Hi].
  f_equal. f_equal.
  - apply (nth_ext _ _ 0 0); [now rewrite map_length, seq_length|]. intros n Hn. rewrite L0 in Hn.
    rewrite (nth_map' _ _ _ 0%nat) by (now rewrite seq_length). rewrite seq_nth by exact Hn. symmetry. now apply D0.
  - apply (nth_ext _ _ 0 0); [now rewrite map_length, Lt|]. intros n Hn. rewrite La in Hn.
    rewrite (nth_map' _ _ _ 0) by (rewrite Lt; exact Hn). unfold tau_to_t_points. rewrite (nth_map' _ _ _ 0) by (rewrite L; exact Hn).
    symmetry. now apply DA.
Qed.
End Both.

Lemma util_oracles : exists rr lg, real_roots_ok rr /\ leggauss_ok lg /\ In "LGL"%string all_schemes /\ enough_points "LGL" 3.
Proof.
  destruct real_roots_exist as [rr A]. destruct leggauss_exists as [lg B]. exists rr, lg.
  split; [exact A|]. split; [exact B|]. split; [cbv; tauto|]. split; intros; lia.
Qed.
Lemma butd_oracles : exists rr lg, real_roots_ok rr /\ leggauss_ok lg /\ In "LG"%string bt_schemes /\ enough_points "LG" 3 /\
  (In "LG"%string gauss_schemes -> (2 <= 3)%nat).
Proof.
  destruct real_roots_exist as [rr A]. destruct leggauss_exists as [lg B]. exists rr, lg.
  split; [exact A|]. split; [exact B|]. split; [cbv; tauto|]. split; [split; intros; lia|lia].
Qed.
