(** Proofs about AnalysisPtModel.v. *)
From Coq Require Import String.
From Coquelicot Require Import Coquelicot.
From Verif Require Import Prelude PreludeFacts Mat MatFacts PwModel PwFacts PwSpec PwInterpModel PwInterpSpec PwInterpProofs
  AnalysisModel AnalysisSpec AnalysisPwProofs AnalysisPtModel AnalysisPtSpec PwFinalProofs CostProofs.
Open Scope R_scope.
Open Scope vec_scope.
Open Scope list_scope.

Lemma mapm_imp {A B} (f g : A -> Res B) l r : (forall a b, In a l -> f a = Ok b -> g a = Ok b) -> mapm f l = Ok r -> mapm g l = Ok r.
Proof.
  revert r. induction l as [|a l IH]; intros r H; [exact (fun x => x)|]. cbn [mapm].
  destruct (f a) as [b|e] eqn:E; cbn [rbind]; [|discriminate]. rewrite (H a b (or_introl eq_refl) E). cbn [rbind].
  destruct (mapm f l) as [bs|e] eqn:E2; cbn [rbind]; [|discriminate]. rewrite (IH bs); auto. intros c d Hc. apply H. now right.
Qed.

Section Implicit.
Variable u_other : string -> R -> Res vec.
Variable hermite : list R -> list vec -> list vec -> R -> vec.
Context {P : Type}.
Section Agree.
Variable F : raising (P := P).
Variable G : vec -> vec -> P -> vec.
Variable p : P.
Hypothesis FG : forall x u y, F x u p = Ok y -> y = G x u p.
Lemma missing_agree X U h Xd scheme us sp r : calculate_missing_r X U h p F Xd scheme us sp = Ok r ->
  calculate_missing X U h p (Some G) Xd scheme us sp = Ok r.
Proof.
  assert (K : forall (Y V : list vec) l v, mapm (fun i => do x <- pyget Y (Z.of_nat i); do u <- pyget V (Z.of_nat i); F x u p) l = Ok v ->
    mapm (fun i => do x <- pyget Y (Z.of_nat i); do u <- pyget V (Z.of_nat i); Ok (G x u p)) l = Ok v).
  { intros Y V l v. apply mapm_imp. intros i b _. destruct (pyget Y _); cbn [rbind]; [|discriminate]. destruct (pyget V _); cbn [rbind]; [|discriminate].
    intros H. now rewrite <- (FG _ _ _ H). }
  unfold calculate_missing_r, calculate_missing.
  set (A := match Xd with Some d => Ok d | None => mapm _ _ end).
  set (B := match Xd with Some d => Ok d | None => mapm _ _ end).
  assert (AB : forall v, A = Ok v -> B = Ok v).
  { unfold A, B. destruct Xd; auto. }
  destruct A as [v|e]; cbn [rbind]; [|discriminate]. rewrite (AB v eq_refl). cbn [rbind].
  destruct (contains "hs" scheme && negb (scheme =? "hs_scipy")%string); [|auto].
  destruct (sp_x_dot_c sp); [auto|].
  match goal with |- (do X_c <- ?e; _) = _ -> _ => destruct e as [Xc|]; cbn [rbind]; [|discriminate] end.
  set (sp1 := match sp_u_c sp with None => _ | Some _ => _ end). destruct (getkey (sp_u_c sp1)) as [Uc|e]; cbn [rbind]; [|discriminate].
  match goal with |- (do XDC <- mapm ?f ?l; _) = _ -> _ => destruct (mapm f l) as [xdc|e] eqn:E; cbn [rbind]; [|discriminate] end.
  rewrite (K _ _ _ _ E). auto.
Qed.
Lemma array_agree X U h ts Xd scheme us sp r : interpolated_array_r u_other hermite X U h ts p F Xd scheme us sp = Ok r ->
  interpolated_array u_other hermite X U h ts p (Some G) Xd scheme us (Some sp) = Ok r.
Proof.
  unfold interpolated_array_r, interpolated_array.
  destruct (negb (mem scheme supported_schemes)); [auto|]. destruct (negb (mem us supported_u_schemes)); [auto|].
  destruct (contains "j" scheme && (us =? "parab")%string); [auto|]. destruct (contains "j" us && negb (contains "j" scheme)); [auto|].
  destruct (if contains "hsn" scheme || contains "trapz_n" scheme then _ else _); cbn [rbind]; [|auto].
  destruct (prepare_interp X U h ts) as [[U' old]|]; cbn [rbind]; [|auto].
  destruct (calculate_missing_r X U' h p F Xd scheme us sp) as [[Xd' sp1]|] eqn:E; cbn [rbind]; [|discriminate].
  rewrite (missing_agree _ _ _ _ _ _ _ _ E). cbn [rbind]. auto.
Qed.
Lemma derivative_agree X U h ts Xd scheme d sp r : interpolated_array_derivative_r X U h ts p F Xd scheme d sp = Ok r ->
  interpolated_array_derivative X U h ts p (Some G) Xd scheme d (Some sp) = Ok r.
Proof.
  unfold interpolated_array_derivative_r, interpolated_array_derivative. destruct (negb (mem scheme supported_schemes)); [auto|].
  destruct (prepare_interp X U h ts) as [[U' old]|]; cbn [rbind]; [|auto].
  destruct (calculate_missing_r X U' h p F Xd scheme "None" sp) as [[Xd' sp1]|] eqn:E; cbn [rbind]; [|discriminate].
  rewrite (missing_agree _ _ _ _ _ _ _ _ E). cbn [rbind]. auto.
Qed.
End Agree.

Variable solve : mat -> vec -> vec.
Notation errors_of := (dynamic_error_implicit u_other hermite solve).
Section System.
Variable M : vec -> P -> mat.
Variable F_impl : vec -> vec -> P -> vec.
Variable p : P.
Notation solved := (solved_dynamics solve M F_impl).
Lemma implicit_F_ok x u q y : implicit_F solve M F_impl 2 x u q = Ok y ->
  y = solved x u q /\ length x = (2 * length (solve (M x q) (F_impl x u q)))%nat.
Proof.
  unfold implicit_F, generate_G, expand_F, solved_dynamics. set (n := (length x / 2)%nat).
  destruct (Nat.eqb_spec (length (solve (M x q) (F_impl x u q))) n) as [L|L]; cbn [rbind]; [|discriminate].
  rewrite firstn_all2 by lia. rewrite skipn_length. destruct (Nat.eqb_spec (length (solve (M x q) (F_impl x u q))) (length x - n)) as [L2|L2]; [|discriminate].
  intros H. injection H as <-. split; [reflexivity|]. pose proof (Nat.div_mod_eq (length x) 2). pose proof (Nat.mod_upper_bound (length x) 2). fold n in H. lia.
Qed.
Lemma implicit_F_even x u q : length x = (2 * length (solve (M x q) (F_impl x u q)))%nat -> implicit_F solve M F_impl 2 x u q = Ok (solved x u q).
Proof.
  intros L. unfold implicit_F, generate_G, expand_F, solved_dynamics.
  assert (E : (length x / 2)%nat = length (solve (M x q) (F_impl x u q))) by (rewrite L, Nat.mul_comm; now apply Nat.div_mul).
  rewrite E, Nat.eqb_refl. cbn [rbind]. rewrite firstn_all. rewrite skipn_length. replace (length x - _)%nat with (length (solve (M x q) (F_impl x u q))) by lia.
  now rewrite Nat.eqb_refl.
Qed.
(** The errors are those of dynamic_error for these dynamics. *)
Lemma implicit_errors X U t_end Xd scheme us sp n mode r :
  errors_of X U t_end p F_impl M Xd scheme us sp n 2 mode = Ok r ->
  dynamic_error u_other hermite X U t_end p solved Xd scheme us sp n 2 mode = Ok r.
Proof.
  unfold dynamic_error_implicit, dynamic_error. set (F := implicit_F solve M F_impl 2).
  assert (FG : forall x u y, F x u p = Ok y -> y = solved x u p) by (intros x u y H; apply implicit_F_ok in H; apply H).
  set (sp' := Build_sparams _ _ _ _). set (h := t_end / _). set (ts := linspace 0 t_end n).
  destruct (interpolated_array_r u_other hermite X U h ts p F Xd scheme us sp') as [[[nX nU] sp1]|] eqn:E; cbn [rbind]; [|discriminate].
  rewrite (array_agree F solved p FG _ _ _ _ _ _ _ _ _ E). cbn [rbind].
  match goal with |- (do ders <- mapm ?f ?l; _) = _ -> _ => destruct (mapm f l) as [ders|e] eqn:ED; cbn [rbind]; [|discriminate] end.
  match goal with |- _ -> (do ders <- mapm ?f ?l; _) = _ => assert (ED2 : mapm f l = Ok ders) end.
  { revert ED. apply mapm_imp. intros jj a _. destruct (interpolated_array_derivative_r X U h ts p F Xd scheme jj sp1) as [[b s]|] eqn:EJ; cbn [rbind]; [|discriminate].
    rewrite (derivative_agree F solved p FG _ _ _ _ _ _ _ _ _ EJ). auto. }
  rewrite ED2. cbn [rbind].
  match goal with |- (do errs <- mapm ?f ?l; _) = _ -> _ => destruct (mapm f l) as [errs|e] eqn:EE; cbn [rbind]; [|discriminate] end.
  match goal with |- _ -> (do errs <- mapm ?f ?l; _) = _ => assert (EE2 : mapm f l = Ok errs) end.
  { revert EE. apply mapm_imp. intros k b _. cbv zeta. destruct (if (mode =? "q")%string then _ else _) as [xin|]; cbn [rbind]; [|discriminate].
    destruct (F xin (nth k nU []) p) as [f|] eqn:EF; cbn [rbind]; [|discriminate]. now rewrite (FG _ _ _ EF). }
  rewrite EE2. auto.
Qed.
Lemma solved_order n : (forall x u, length x = (2 * n)%nat -> length (solve (M x p) (F_impl x u p)) = n) -> order_form 2 n solved p.
Proof.
  intros H x u Lx. unfold solved_dynamics. specialize (H x u Lx). rewrite Lx, (Nat.mul_comm 2), Nat.div_mul by lia.
  rewrite app_length, skipn_length, H, Lx. split; [lia|]. change (2 - 1)%nat with 1%nat. rewrite Nat.mul_1_l.
  rewrite firstn_app, skipn_length, Lx. replace (n - (2 * n - n))%nat with 0%nat by lia. cbn [firstn]. rewrite app_nil_r. apply firstn_all2. rewrite skipn_length. lia.
Qed.
Theorem implicit_errors_are scheme u_scheme (B m n : nat) (t_end : R) (X U : list vec) (sp0 : option sparams) n_interp mode errs sp' :
  let sp := Build_sparams (Some 2%nat) None None (match sp0 with Some d => sp_u_c d | None => None end) in
  let h := t_end / (INR (length X) - 1) in
  (forall d, sp0 = Some d -> sp_x_dot_c d = None /\ sp_x_c d = None) ->
  scheme_blocks scheme (Some 2%nat) = Some B -> (0 < n)%nat -> (B * m = 2 * n)%nat -> 0 < t_end ->
  (forall x u, length x = (2 * n)%nat -> length (solve (M x p) (F_impl x u p)) = n) ->
  (2 <= length X)%nat -> (forall x, In x X -> length x = (2 * n)%nat) -> (forall d, (d <= 2)%nat -> dmax_of scheme d) ->
  steps_hold solved p scheme B m h X (full_controls X U) sp ->
  errors_of X U t_end p F_impl M None scheme u_scheme sp0 n_interp 2 mode = Ok (errs, sp') ->
  exists (Y : R -> vec) (Z : nat -> R -> vec) nX nU sp1,
    on_samples X h Y /\ pieces solved p scheme B m h X (full_controls X U) sp Y Z /\
    interpolated_array u_other hermite X U h (linspace 0 t_end n_interp) p (Some solved) None scheme u_scheme (Some sp) = Ok (nX, nU, sp1) /\
    length errs = n_interp /\
    forall k, (k < n_interp)%nat -> exists x ys,
      let t := vnth (linspace 0 t_end n_interp) k in let u := nth k nU [] in
      is_value_of X h Y t x /\ length ys = 2%nat /\
      (forall d, (d < 2)%nat -> is_derivative_of (2 * n) X h Z (d + 1) t (nth d ys [])) /\
      (mode = "q" \/ mode = "x")%string /\
      errors_are n 2 x ys
        (lastn n (solved (if (mode =? "q")%string then blk n 0 x ++ blk n 0 (nth 0 ys []) else x) u p))
        (nth k errs []).
Proof.
  intros sp h HSP SB HN HB TE HS LX SX DM ST HE. apply implicit_errors in HE.
  assert (HB2 : B = 1%nat \/ B = 2%nat).
  { revert SB. unfold scheme_blocks. repeat match goal with |- (if ?b then _ else _) = _ -> _ => destruct b end; intros E; try discriminate; injection E as <-; auto. }
  assert (OF : order_form B m solved p).
  { destruct HB2 as [-> | ->].
    - assert (Em : m = (2 * n)%nat) by lia. subst m. intros x u Lx. rewrite Nat.mul_1_l in Lx. destruct (solved_order n HS x u Lx) as [L _]. split; [lia|].
      cbn [Nat.sub Nat.mul firstn]. rewrite skipn_all2; [reflexivity|lia].
    - assert (Em : m = n) by lia. subst m. apply solved_order. exact HS. }
  destruct (dynamic_error_ok solved p u_other hermite scheme u_scheme B m 2 n t_end X U sp0 n_interp mode errs sp' HSP SB) as (Y & Z & nX & nU & sp1 & A1 & A2 & A3 & A4 & A5); auto.
  { destruct HB2 as [-> | ->]; lia. } { destruct HB2 as [-> | ->]; lia. } { rewrite HB. exact SX. }
  exists Y, Z, nX, nU, sp1. split; [exact A1|]. split; [exact A2|]. split; [exact A3|]. split; [exact A4|]. intros k Hk. destruct (A5 k Hk) as (x & ys & V1 & V2 & V3 & V4 & V5).
  exists x, ys. split; [exact V1|]. split; [exact V2|]. rewrite HB in V3. split; [exact V3|]. split; [exact V4|].
  cbn [seq flat_map nth] in V5. rewrite app_nil_r in V5. exact V5.
Qed.
(** When the first state is refused so is the array. *)
Lemma first_refused X x0 U t_end scheme us sp n order mode :
  (forall u, exists e, implicit_F solve M F_impl order x0 u p = Err e) ->
  exists e, errors_of (x0 :: X) U t_end p F_impl M None scheme us sp n order mode = Err e.
Proof.
  intros H. unfold dynamic_error_implicit. set (F := implicit_F solve M F_impl order) in *.
  set (sp' := Build_sparams _ _ _ _). set (h := t_end / _). set (ts := linspace 0 t_end n).
  unfold interpolated_array_r.
  destruct (negb (mem scheme supported_schemes)); [cbn [rbind]; eauto|]. destruct (negb (mem us supported_u_schemes)); [cbn [rbind]; eauto|].
  destruct (contains "j" scheme && (us =? "parab")%string); [cbn [rbind]; eauto|]. destruct (contains "j" us && negb (contains "j" scheme)); [cbn [rbind]; eauto|].
  destruct (if contains "hsn" scheme || contains "trapz_n" scheme then _ else _) as [[]|]; cbn [rbind]; [|eauto].
  destruct (prepare_interp (x0 :: X) U h ts) as [[U' old]|]; cbn [rbind]; [|eauto].
  unfold calculate_missing_r. cbn [length seq mapm]. change (pyget (x0 :: X) (Z.of_nat 0)) with (@Ok vec x0). cbn [rbind].
  destruct (pyget U' (Z.of_nat 0)) as [u|]; cbn [rbind]; [|eauto]. destruct (H u) as [e He]. rewrite He. cbn [rbind]. eauto.
Qed.
Lemma multipliers_refused X x0 U t_end scheme us sp n order mode :
  (forall u, (length x0 / 2 < length (solve (M x0 p) (F_impl x0 u p)))%nat) ->
  exists e, errors_of (x0 :: X) U t_end p F_impl M None scheme us sp n order mode = Err e.
Proof.
  intros H. apply first_refused. intros u. unfold implicit_F. rewrite generate_G_multipliers by apply H. cbn [rbind]. eauto.
Qed.
Lemma orders_refused X x0 U t_end scheme us sp n order mode dim : order <> 2%nat -> (0 < order)%nat -> (0 < dim)%nat -> length x0 = (order * dim)%nat ->
  (forall u, length (solve (M x0 p) (F_impl x0 u p)) = dim) ->
  exists e, errors_of (x0 :: X) U t_end p F_impl M None scheme us sp n order mode = Err e.
Proof.
  intros NO HO HD LX H. apply first_refused. intros u. unfold implicit_F, generate_G.
  destruct (Nat.eqb_spec (length (solve (M x0 p) (F_impl x0 u p))) (length x0 / 2)) as [E|E]; cbn [rbind]; [|eauto].
  unfold expand_F. rewrite firstn_all2 by lia. rewrite skipn_length, H, LX. rewrite (Nat.mul_comm order), Nat.div_mul by lia.
  destruct (Nat.eqb_spec dim (dim * order - dim)) as [E2|E2]; [exfalso; nia|eauto].
Qed.
End System.
End Implicit.

(** ** F_point and the quadratures *)
Section Quadratures.
Context {P : Type}.
Variables hermite hermite_der : list R -> list vec -> list vec -> R -> vec.
Variable quad : (R -> Res R) -> R -> R -> list R -> Res R.
Variable F : vec -> vec -> P -> vec.
Variable p : P.
Notation point := (F_point hermite hermite_der).

Lemma point_refused X U ts t Xd scheme us sp : scheme <> "hs_scipy"%string -> exists e, point X U ts t p F Xd scheme us sp = Err e.
Proof.
  intros NS. unfold F_point. destruct (calculate_missing _ _ _ _ _ _ _ _ _) as [[xd s]|]; cbn [rbind]; [|eauto].
  apply String.eqb_neq in NS. rewrite NS. destruct (newpoint _ _ _ _ _ _); cbn [rbind]; [|eauto].
  destruct (newpoint_u _ _ _ _ _ _); cbn [rbind newpoint_der_of_8]; eauto.
Qed.
Lemma mapm_refused {A B} (f : A -> Res B) l : l <> [] -> (forall a, exists e, f a = Err e) -> exists e, mapm f l = Err e.
Proof. destruct l as [|a l]; [congruence|]. intros _ H. cbn [mapm]. destruct (H a) as [e E]. rewrite E. cbn [rbind]. eauto. Qed.
Lemma quad_refused X U ts scheme us sp Xd b : quad_raises quad -> (2 <= mwidth X)%nat ->
  exists e, quad_problem hermite hermite_der quad X U ts p F scheme us sp Xd b = Err e.
Proof.
  intros Q W. unfold quad_problem. destruct (calculate_missing _ _ _ _ _ _ _ _ _) as [[xd s]|]; cbn [rbind]; [|eauto].
  apply mapm_refused. { intros E. apply (f_equal (@length nat)) in E. rewrite seq_length in E. cbn [length] in E. assert (1 <= mwidth X / 2)%nat by (apply Nat.div_le_lower_bound; lia). lia. }
  intros ii. apply Q. intros t. destruct (F_point _ _ _ _ _ _ _ _ _ _ _ _); cbn [rbind newpoint_der_of_8]; eauto.
Qed.
Lemma doub_quad_refused X U ts scheme us sp b : quad_raises quad -> (2 <= mwidth X)%nat -> scheme <> "hs_scipy"%string ->
  exists e, doub_quad_problem hermite hermite_der quad X U ts p F scheme us sp b = Err e.
Proof.
  intros Q W NS. unfold doub_quad_problem.
  apply mapm_refused. { intros E. apply (f_equal (@length nat)) in E. rewrite seq_length in E. cbn [length] in E. assert (1 <= mwidth X / 2)%nat by (apply Nat.div_le_lower_bound; lia). lia. }
  intros ii. match goal with |- context [quad ?f ?a ?b ?c] => destruct (Q f a b c) as [e E] end.
  { intros t. apply Q. intros s. destruct (point_refused X U ts s None scheme us sp NS) as [e E]. rewrite E. cbn [rbind]. eauto. }
  rewrite E. cbn [rbind]. eauto.
Qed.

(** hs_scipy *)
Lemma newpoint_u_lin U h t sp u_other : 0 < h -> (2 <= length U)%nat -> 0 <= t <= (INR (length U) - 1) * h ->
  exists u, newpoint_u u_other U h t "lin" sp = Ok u /\ control_at U h t u.
Proof.
  intros Hh HU Ht. pose proof snap_pos as S1. pose proof snap_small as S2.
  destruct (cover_step h (length U - 1) t ltac:(lia)) as (i & Hi & B). { rewrite minus_INR by lia. cbn [INR]. exact Ht. }
  destruct (Rlt_dec (Rabs (t - INR i * h)) (h * snap)) as [H|H].
  { exists (nth i U []). split; [apply newpoint_u_snap; auto; lia|]. left. exists i. repeat split; auto; lia. }
  destruct (Rlt_dec (Rabs (t - INR (i + 1) * h)) (h * snap)) as [H1|H1].
  { exists (nth (i + 1) U []). split; [apply newpoint_u_snap; auto; lia|]. left. exists (i + 1)%nat. repeat split; auto; lia. }
  rewrite plus_INR in H1. cbn [INR] in H1. apply Rnot_lt_le in H, H1.
  rewrite Rabs_pos_eq in H by lra. rewrite Rabs_left1 in H1 by lra.
  exists ((((INR i + 1) * h - t) *v nth i U [] +v (t - INR i * h) *v nth (i + 1) U []) /v h).
  split; [|right; exists i; split; [lia|]; split; [lra|reflexivity]].
  unfold newpoint_u. assert (En : seg_index t h = Z.of_nat i) by (apply seg_index_eq; rewrite <- ?INR_IZR_INZ; nra).
  unfold seg_tau. rewrite En, <- INR_IZR_INZ.
  destruct (Z.ltb_spec (Z.of_nat (length U)) (Z.of_nat i + 1)); [lia|].
  destruct (Rlt_dec _ _) as [Y|_]. { rewrite Rabs_pos_eq in Y; nra. }
  destruct (Rlt_dec _ _) as [Y|_]. { rewrite Rabs_left1 in Y; nra. }
  replace (Z.of_nat i + 1)%Z with (Z.of_nat (i + 1)) by lia.
  rewrite (pyget_nat U i []), (pyget_nat U (i + 1) []) by lia. cbn [rbind]. change ("lin" =? "lin")%string with true. cbv iota.
  now replace (h - (t - INR i * h)) with ((INR i + 1) * h - t) by ring.
Qed.
Definition rows_of (X U : list vec) (Xd : option (list vec)) : list vec :=
  match Xd with Some d => d | None => map2 (fun x u => F x u p) X U end.
Lemma mapm_ok {A B} (f : A -> Res B) (g : A -> B) l : (forall a, In a l -> f a = Ok (g a)) -> mapm f l = Ok (map g l).
Proof.
  induction l as [|a l IH]; intros H; [reflexivity|]. cbn [mapm map]. rewrite (H a) by now left. cbn [rbind]. rewrite IH; [reflexivity|]. intros b Hb. apply H. now right.
Qed.
Lemma map2_seq {A B C} (f : A -> B -> C) l m d e : length l = length m -> map2 f l m = map (fun i => f (nth i l d) (nth i m e)) (seq 0 (length l)).
Proof.
  revert m. induction l as [|a l IH]; intros [|b m]; try discriminate; [reflexivity|]. intros H. injection H as H.
  cbn [map2 length seq map nth]. f_equal. rewrite IH by exact H. rewrite <- seq_shift, map_map. reflexivity.
Qed.
Lemma missing_scipy X U h Xd us sp : length U = length X -> calculate_missing X U h p (Some F) Xd "hs_scipy" us sp = Ok (rows_of X U Xd, sp).
Proof.
  intros L. unfold calculate_missing, rows_of. destruct Xd as [d|]; [reflexivity|].
  rewrite (mapm_ok _ (fun i => F (nth i X []) (nth i U []) p)).
  - cbn [rbind]. rewrite (map2_seq _ X U [] []) by auto. reflexivity.
  - intros i Hi. apply in_seq in Hi. rewrite (pyget_nat X i []), (pyget_nat U i []) by lia. reflexivity.
Qed.
Lemma point_value X U ts t Xd sp : (2 <= length X)%nat -> length U = length X -> vnth ts 0 < last ts 0 ->
  0 <= t <= last ts 0 - vnth ts 0 ->
  exists u, control_at U ((last ts 0 - vnth ts 0) / (INR (length X) - 1)) t u /\
    point X U ts t p F Xd "hs_scipy" "lin" sp =
      Ok (skipn (mwidth X / 2) (F (firstn (mwidth X / 2) (hermite ts X (rows_of X U Xd) t) ++ firstn (mwidth X / 2) (hermite_der ts X (rows_of X U Xd) t)) u p)).
Proof.
  intros LX LU HT Ht. assert (HN : 0 < INR (length X) - 1). { apply (le_INR 2) in LX. cbn [INR] in LX. lra. }
  unfold F_point. set (h := _ / _). rewrite missing_scipy by exact LU. cbn [rbind]. change ("hs_scipy" =? "hs_scipy")%string with true. cbv iota. cbn [rbind].
  assert (Hh : 0 < h) by (apply Rdiv_lt_0_compat; lra).
  destruct (newpoint_u_lin U h t (match sp with None => no_params | Some d => d end) (fun _ _ => Err KeyError) Hh ltac:(lia)) as (u & Eu & Cu).
  { rewrite LU. unfold h. replace ((INR (length X) - 1) * ((last ts 0 - vnth ts 0) / (INR (length X) - 1))) with (last ts 0 - vnth ts 0) by (field; lra). exact Ht. }
  rewrite Eu. cbn [rbind]. exists u. split; [exact Cu|reflexivity].
Qed.
(** The double integral *)
Lemma mapm_nth_ok {A B} (f : A -> Res B) l : (forall a, In a l -> exists b, f a = Ok b) -> exists r, mapm f l = Ok r.
Proof.
  induction l as [|a l IH]; intros H; [eexists; reflexivity|]. cbn [mapm]. destruct (H a (or_introl eq_refl)) as [b E]. rewrite E. cbn [rbind].
  destruct IH as [r Er]; [intros c Hc; apply H; now right|]. rewrite Er. cbn [rbind]. eauto.
Qed.
Theorem double_integral X U ts sp b dim (a g : nat -> R -> R) :
  quad_exact quad -> second_order dim F p -> (2 <= length X)%nat -> length U = length X -> length ts = length X ->
  vnth ts 0 = 0 -> 0 < last ts 0 -> (forall x, In x X -> length x = (2 * dim)%nat) ->
  let T := last ts 0 in let h := T / (INR (length X) - 1) in
  let Xd := map2 (fun x u => F x u p) X U in
  let q := hermite ts X Xd in let qd := hermite_der ts X Xd in
  interpolates ts X Xd q qd ->
  (forall ii, (ii < dim)%nat -> forall t, is_RInt (a ii) 0 t (vnth (qd t) ii - vnth (qd 0) ii)) ->
  (forall ii, (ii < dim)%nat -> forall t, ex_RInt (g ii) 0 t) ->
  (forall ii t u, (ii < dim)%nat -> 0 <= t <= T -> control_at U h t u ->
    vnth (F (firstn dim (q t) ++ firstn dim (qd t)) u p) (dim + ii) = g ii t) ->
  exists E, doub_quad_problem hermite hermite_der quad X U ts p F "hs_scipy" "lin" sp b = Ok E /\ length E = dim /\
    forall ii, (ii < dim)%nat -> vnth E ii = RInt (fun t => RInt (fun s => a ii s - g ii s) 0 t) 0 T.
Proof.
  intros Q SO LX LU LT T0 HT SX T h Xd q qd (IV & IL & ID) IA IG HG.
  assert (W : mwidth X = (2 * dim)%nat). { destruct X as [|x X']; [cbn in LX; lia|]. cbn [mwidth]. apply SX. now left. }
  assert (WD : (mwidth X / 2)%nat = dim) by (rewrite W, Nat.mul_comm; now apply Nat.div_mul).
  assert (LF : forall t u, length (F (firstn dim (q t) ++ firstn dim (qd t)) u p) = (2 * dim)%nat).
  { intros t u. apply SO. destruct (IL t) as [L1 L2]. rewrite app_length, !firstn_length, L1, L2, W. lia. }
  assert (PT : forall ii t, (ii < dim)%nat -> 0 <= t <= T -> (do E <- point X U ts t p F None "hs_scipy" "lin" sp; item ii E) = Ok (g ii t)).
  { intros ii t Hi Ht. destruct (point_value X U ts t None sp LX LU) as (u & Cu & Eu); [lra|rewrite T0, Rminus_0_r; exact Ht|].
    rewrite Eu. cbn [rbind]. rewrite T0, Rminus_0_r in Cu. rewrite <- (HG ii t u Hi Ht Cu). rewrite WD. unfold item.
    change (rows_of X U None) with Xd. fold q qd. unfold vnth. rewrite <- nth_skipn'.
    set (v := skipn _ _). assert (Lv : (ii < length v)%nat) by (unfold v; rewrite skipn_length, LF; lia).
    now rewrite (List.nth_error_nth' v 0 Lv). }
  assert (IN : forall ii t, (ii < dim)%nat -> 0 <= t <= T ->
    quad (fun s => do E <- point X U ts s p F None "hs_scipy" "lin" sp; item ii E) (vnth ts 0) t (break_points b ts) = Ok (RInt (g ii) 0 t)).
  { intros ii t Hi Ht. rewrite T0. apply Q; [lra| |now apply IG]. intros s Hs. apply PT; [exact Hi|lra]. }
  assert (EI : forall ii, (ii < dim)%nat -> ex_RInt (fun t => RInt (g ii) 0 t) 0 T).
  { intros ii Hi. apply ex_RInt_continuous. intros z _. apply (continuous_RInt_1 (V := R_CompleteNormedModule) (g ii) 0 z).
    exists (mkposreal 1 Rlt_0_1). intros y _. now apply (RInt_correct (V := R_CompleteNormedModule)), IG. }
  assert (OU : forall ii, (ii < dim)%nat ->
    quad (fun t => quad (fun s => do E <- point X U ts s p F None "hs_scipy" "lin" sp; item ii E) (vnth ts 0) t (break_points b ts)) (vnth ts 0) (last ts 0) (break_points b ts)
      = Ok (RInt (fun t => RInt (g ii) 0 t) 0 T)).
  { intros ii Hi. specialize (IN ii). set (f := fun t => quad _ _ t _). assert (IN' : forall t, 0 <= t <= T -> f t = Ok (RInt (g ii) 0 t)) by (intros t Ht; now apply IN).
    clearbody f. rewrite T0. apply Q; [unfold T; lra|exact IN'|now apply EI]. }
  unfold doub_quad_problem. rewrite WD.
  erewrite mapm_ok with (g := fun ii => vnth (last X []) ii - vnth (nth 0 X []) ii - vnth (nth 0 X []) (dim + ii) * T - RInt (fun t => RInt (g ii) 0 t) 0 T).
  2:{ intros ii Hi. apply in_seq in Hi. rewrite OU by lia. reflexivity. }
  eexists. split; [reflexivity|]. split; [now rewrite map_length, seq_length|]. intros ii Hi.
  unfold vnth at 1. rewrite (nth_map' _ _ _ 0%nat) by now rewrite seq_length. rewrite seq_nth by exact Hi. cbn [Nat.add].
  destruct (IV 0%nat ltac:(lia)) as [V0 D0]. rewrite T0 in V0, D0.
  destruct (IV (length X - 1)%nat ltac:(lia)) as [V1 _].
  assert (ET : vnth ts (length X - 1) = T).
  { unfold T, vnth. rewrite <- LT. now rewrite last_nth_length by (intros ->; cbn in LT; lia). }
  rewrite ET in V1. rewrite last_nth_length by (intros ->; cbn in LX; lia). rewrite <- V1, <- V0.
  assert (ED : vnth (q 0) (dim + ii) = vnth (qd 0) ii).
  { rewrite D0, V0. unfold Xd. destruct X as [|x X']; [cbn in LX; lia|]. destruct U as [|u U']; [cbn in LU; lia|]. cbn [map2 nth].
    destruct (SO x u) as [_ S2]; [apply SX; now left|]. unfold vnth. rewrite <- (nth_firstn_lt _ dim _ ii) by exact Hi. rewrite S2. now rewrite nth_skipn'. }
  rewrite ED.
  rewrite (RInt_ext (fun t => RInt (fun s => a ii s - g ii s) 0 t) (fun t => minus (minus (vnth (qd t) ii) (vnth (qd 0) ii)) (RInt (g ii) 0 t))).
  2:{ intros t _. etransitivity; [apply (RInt_minus (V := R_CompleteNormedModule) (a ii) (g ii)); [eexists; apply IA; exact Hi|now apply IG]|].
      f_equal. apply is_RInt_unique. now apply IA. }
  assert (CQ : forall t, continuous (fun t => vnth (qd t) ii) t).
  { intros t. apply continuous_ext with (fun t => plus (RInt (a ii) 0 t) (vnth (qd 0) ii)).
    - intros s. rewrite (is_RInt_unique _ _ _ _ (IA ii Hi s)). unfold plus; cbn. ring.
    - apply (continuous_plus (V := R_CompleteNormedModule) (fun t => RInt (a ii) 0 t) (fun _ => vnth (qd 0) ii)); [|apply continuous_const]. apply (continuous_RInt_1 (V := R_CompleteNormedModule) (a ii) 0 t).
      exists (mkposreal 1 Rlt_0_1). intros y _. apply (RInt_correct (V := R_CompleteNormedModule)). eexists. now apply IA. }
  assert (I1 : is_RInt (fun t => vnth (qd t) ii) 0 T (vnth (q T) ii - vnth (q 0) ii)).
  { apply (is_RInt_derive (V := R_CompleteNormedModule) (fun t => vnth (q t) ii)); [intros; apply ID|intros; apply CQ]. }
  assert (I2 : is_RInt (fun _ => vnth (qd 0) ii) 0 T (T * vnth (qd 0) ii)).
  { pose proof (is_RInt_const (V := R_CompleteNormedModule) 0 T (vnth (qd 0) ii)) as I. unfold scal in I; cbn in I. unfold mult in I; cbn in I. now rewrite Rminus_0_r in I. }
  pose proof (is_RInt_minus (V := R_CompleteNormedModule) _ _ 0 T _ _ (is_RInt_minus (V := R_CompleteNormedModule) _ _ 0 T _ _ I1 I2) (RInt_correct (V := R_CompleteNormedModule) _ _ _ (EI ii Hi))) as I3.
  apply is_RInt_unique in I3. etransitivity; [|symmetry; exact I3]. unfold minus, plus, opp; cbn. ring.
Qed.
End Quadratures.
