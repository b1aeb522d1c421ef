(** [dynamic_error] for equispaced samples, the functions of arrays, what the
    functions write, and [generate_G]. *)
From Coq Require Import String.
From Coquelicot Require Import Coquelicot.
From Verif Require Import Prelude PreludeFacts Poly PolyFacts PolyInterp Mat MatFacts PwModel PwFacts PwSpec PwInterpModel PwInterpSpec PwInterpProofs PwFinalProofs
  PsModel PsSpec PsBaryProofs PsApplyProofs PsInterpProofs
  AnalysisModel AnalysisSpec AnalysisProofs AnalysisPhProofs.
Open Scope R_scope.
Open Scope vec_scope.
Open Scope list_scope.

Lemma linspace_nonneg b n t : 0 <= b -> In t (linspace 0 b n) -> 0 <= t.
Proof.
  intros Hb H. unfold linspace in H. apply in_map_iff in H. destruct H as (i & <- & Hi). apply in_seq in Hi. rewrite Rplus_0_l, Rminus_0_r.
  destruct (Nat.eq_dec (n - 1) 0) as [E|E].
  - replace i with 0%nat by lia. cbn [INR]. lra.
  - apply Rmult_le_pos; [apply pos_INR|]. apply Rmult_le_pos; [exact Hb|]. left. apply Rinv_0_lt_compat. apply lt_0_INR. lia.
Qed.

Lemma linspace_le b n k : 0 <= b -> (k < n)%nat -> vnth (linspace 0 b n) k <= b.
Proof.
  intros Hb Hk. rewrite vnth_linspace by exact Hk. rewrite Rplus_0_l, Rminus_0_r.
  destruct (Nat.eq_dec (n - 1) 0) as [E|E].
  - replace k with 0%nat by lia. cbn [INR]. lra.
  - assert (0 < INR (n - 1)) by (apply lt_0_INR; lia). assert (INR k <= INR (n - 1)) by (apply le_INR; lia).
    replace (INR k * (b / INR (n - 1))) with (b * (INR k / INR (n - 1))) by (field; lra).
    rewrite <- (Rmult_1_r b) at 2. apply Rmult_le_compat_l; [exact Hb|]. apply (Rdiv_le_1 (INR k)); assumption.
Qed.
Lemma cover_step h N t : (1 <= N)%nat -> 0 <= t <= INR N * h -> exists i, (i < N)%nat /\ INR i * h <= t <= (INR i + 1) * h.
Proof.
  intros HN Ht. induction N as [|N IH]; [lia|]. rewrite S_INR in Ht.
  destruct (Rle_dec (INR N * h) t) as [H|H]; [exists N; split; [lia|lra]|].
  destruct N as [|N]; [cbn [INR] in H; lra|]. destruct IH as (i & Hi & B); [lia|lra|]. exists i. split; [lia|exact B].
Qed.
Lemma flat_map_ext_in' {A B} (f g : A -> list B) l : (forall a, In a l -> f a = g a) -> flat_map f l = flat_map g l.
Proof.
  induction l as [|a l IH]; intros H; [reflexivity|]. cbn [flat_map]. rewrite (H a) by now left. now rewrite IH by (intros; apply H; now right).
Qed.

(** The dictionary that the first call fills does not change the next. *)
Lemma missing_twice {P} (F : vec -> vec -> P -> vec) (p : P) X U h Xd scheme us sp Xd' sp1 :
  calculate_missing X U h p (Some F) Xd scheme us sp = Ok (Xd', sp1) ->
  calculate_missing X U h p (Some F) Xd scheme "None" sp = Ok (Xd', sp1) /\
  calculate_missing X U h p (Some F) Xd scheme "None" sp1 = Ok (Xd', sp1).
Proof.
  unfold calculate_missing. set (D := match Xd with Some d => Ok d | None => _ end).
  destruct D as [D'|e]; cbn [rbind]; [|discriminate].
  destruct (contains "hs" scheme && negb (scheme =? "hs_scipy")%string) eqn:EH.
  2:{ intros H. injection H as <- <-. auto. }
  destruct (sp_x_dot_c sp) as [xc|] eqn:EC.
  { intros H. injection H as <- <-. rewrite EC. auto. }
  match goal with |- context [do X_c <- ?e; _] => set (XC := e); destruct XC as [xc|e'] eqn:EXC end; cbn [rbind]; [|discriminate].
  change (contains "parab" "None") with false.
  destruct (sp_u_c sp) as [uc|] eqn:EU.
  - rewrite EU. cbn [getkey rbind].
    match goal with |- context [mapm ?f ?l] => destruct (mapm f l) as [v|e'] end; cbn [rbind]; [|discriminate].
    intros H. injection H as <- <-. cbn [sp_x_dot_c]. auto.
  - destruct (contains "parab" us) eqn:EP.
    + rewrite EU. cbn [getkey rbind]. discriminate.
    + cbn [sp_u_c getkey rbind].
      match goal with |- context [mapm ?f ?l] => destruct (mapm f l) as [v|e'] end; cbn [rbind]; [|discriminate].
      intros H. injection H as <- <-. cbn [sp_x_dot_c]. auto.
Qed.
Lemma second_call {P} (F : vec -> vec -> P -> vec) (p : P) u_other hermite X U h ts Xd scheme u_scheme sp nX nU sp1 d :
  interpolated_array u_other hermite X U h ts p (Some F) Xd scheme u_scheme (Some sp) = Ok (nX, nU, sp1) ->
  interpolated_array_derivative X U h ts p (Some F) Xd scheme d (Some sp1) =
  interpolated_array_derivative X U h ts p (Some F) Xd scheme d (Some sp).
Proof.
  unfold interpolated_array, interpolated_array_derivative. intros H.
  destruct (negb (mem scheme supported_schemes)); [reflexivity|].
  destruct (negb (mem u_scheme supported_u_schemes)); [discriminate|].
  destruct (contains "j" scheme && (u_scheme =? "parab")%string); [discriminate|].
  destruct (contains "j" u_scheme && negb (contains "j" scheme)); [discriminate|].
  match type of H with (do _ <- ?e; _) = _ => destruct e as [?|?]; cbn [rbind] in H; [|discriminate] end.
  destruct (prepare_interp X U h ts) as [[U' old]|e]; cbn [rbind] in *; [|discriminate].
  destruct (calculate_missing X U' h p (Some F) Xd scheme u_scheme sp) as [[Xd' sp2]|e] eqn:EM; cbn [rbind] in H; [|discriminate].
  assert (sp2 = sp1).
  { destruct (interpolate_u u_other U' old ts u_scheme sp2) as [v|e]; cbn [rbind] in H; [|discriminate].
    destruct (scheme =? "hs_scipy")%string; [congruence|].
    match type of H with (do _ <- ?e; _) = _ => destruct e as [?|?]; cbn [rbind] in H; [|discriminate] end. congruence. }
  subst sp2. destruct (missing_twice F p X U' h Xd scheme u_scheme sp Xd' sp1 EM) as [-> ->]. reflexivity.
Qed.

Theorem dynamic_error_ok {P} (F : vec -> vec -> P -> vec) (p : P) u_other hermite scheme u_scheme (M n order dim : nat) (t_end : R)
  (X U : list vec) (sp0 : option sparams) n_interp mode errs sp' :
  let sp := Build_sparams (Some order) None None (match sp0 with Some d => sp_u_c d | None => None end) in
  let h := t_end / (INR (length X) - 1) in
  (forall d, sp0 = Some d -> sp_x_dot_c d = None /\ sp_x_c d = None) ->
  scheme_blocks scheme (Some order) = Some M -> (0 < M)%nat -> (0 < n)%nat -> order_form M n F p -> 0 < t_end ->
  (2 <= length X)%nat -> (forall x, In x X -> length x = (M * n)%nat) ->
  (0 < order)%nat -> (order * dim = M * n)%nat -> (forall d, (d <= order)%nat -> dmax_of scheme d) ->
  steps_hold F p scheme M n h X (full_controls X U) sp ->
  dynamic_error u_other hermite X U t_end p F None scheme u_scheme sp0 n_interp order mode = Ok (errs, sp') ->
  exists (Y : R -> vec) (Z : nat -> R -> vec) nX nU sp1,
    on_samples X h Y /\ pieces F p scheme M n h X (full_controls X U) sp Y Z /\
    interpolated_array u_other hermite X U h (linspace 0 t_end n_interp) p (Some F) None scheme u_scheme (Some sp) = Ok (nX, nU, sp1) /\
    length errs = n_interp /\
    forall k, (k < n_interp)%nat -> exists x ys,
      let t := vnth (linspace 0 t_end n_interp) k in let u := nth k nU [] in
      is_value_of X h Y t x /\ length ys = order /\
      (forall d, (d < order)%nat -> is_derivative_of (M * n) X h Z (d + 1) t (nth d ys [])) /\
      (mode = "q" \/ mode = "x")%string /\
      errors_are dim order x ys
        (lastn dim (F (if (mode =? "q")%string then flat_map (fun d => blk dim 0 (nth d (x :: ys) [])) (seq 0 order) else x) u p))
        (nth k errs []).
Proof.
  intros sp h HSP SB HM Hn OF TE LX SX HO DIM DM SH E.
  assert (LX' : 0 < INR (length X) - 1).
  { apply (le_INR 2) in LX. cbn [INR] in LX. lra. }
  assert (Hh : 0 < h) by (apply Rdiv_lt_0_compat; assumption).
  destruct (driver F p u_other hermite scheme M n h X U sp SB HM Hn OF Hh LX SX eq_refl eq_refl SH) as (Y & Z & CY & OS & PC & DA & DD).
  unfold dynamic_error in E. fold h in E.
  set (sp_ := Build_sparams (Some order) _ _ _) in E.
  assert (ESP : sp_ = sp).
  { unfold sp_, sp. destruct sp0 as [d|]; [|reflexivity]. destruct (HSP d eq_refl) as [-> ->]. reflexivity. }
  rewrite ESP in E. clear sp_ ESP.
  destruct (interpolated_array u_other hermite X U h (linspace 0 t_end n_interp) p (Some F) None scheme u_scheme (Some sp)) as [[[nX nU] sp1]|e] eqn:EI;
    cbn [rbind] in E; [|discriminate].
  rewrite (mapm_ext _ (fun jj => do (a, _) <- interpolated_array_derivative X U h (linspace 0 t_end n_interp) p (Some F) None scheme jj (Some sp); Ok a)) in E
    by (intros jj _; now rewrite (second_call F p u_other hermite X U h _ None scheme u_scheme sp nX nU sp1 jj EI)).
  match type of E with (do _ <- ?e; _) = _ => destruct e as [ders|?] eqn:ED; cbn [rbind] in E; [|discriminate] end.
  match type of E with (do _ <- ?e; _) = _ => destruct e as [errs'|?] eqn:EE; cbn [rbind] in E; [|discriminate] end.
  injection E as E1 E2. subst errs' sp'.
  assert (TS : forall t, In t (linspace 0 t_end n_interp) -> 0 <= t) by (intros t; apply linspace_nonneg; lra).
  destruct (DA u_scheme _ nX nU sp1 TS EI) as [LnX VnX]. rewrite linspace_length in LnX, VnX.
  apply mapm_ok in ED. rewrite seq_length in ED. destruct ED as [LD HD].
  assert (DV : forall d, (d < order)%nat -> length (nth d ders []) = n_interp /\
     forall k, (k < n_interp)%nat -> is_derivative_of (M * n) X h Z (d + 1) (vnth (linspace 0 t_end n_interp) k) (nth k (nth d ders []) [])).
  { intros d Hd. specialize (HD d 0%nat [] Hd). rewrite seq_nth in HD by exact Hd.
    destruct (interpolated_array_derivative X U h (linspace 0 t_end n_interp) p (Some F) None scheme (1 + d) (Some sp)) as [[a sp2]|e] eqn:EDD; cbn [rbind] in HD; [|discriminate].
    injection HD as HD. rewrite <- HD. destruct (DD (1 + d)%nat _ a sp2 ltac:(lia) (DM (1 + d)%nat ltac:(lia)) TS EDD) as [La Va]. rewrite linspace_length in La, Va.
    split; [exact La|]. intros k Hk. rewrite Nat.add_comm. now apply Va. }
  apply mapm_ok in EE. rewrite seq_length in EE. destruct EE as [LE HEE].
  exists Y, Z, nX, nU, sp1. split; [exact OS|]. split; [exact PC|]. split; [reflexivity|]. split; [exact LE|].
  intros k Hk. set (x := nth k nX []). set (ys := map (fun a => nth k a []) ders). exists x, ys. cbn zeta.
  assert (LYS : length ys = order) by (unfold ys; now rewrite map_length).
  assert (NYS : forall d, (d < order)%nat -> nth d ys [] = nth k (nth d ders []) []).
  { intros d Hd. unfold ys. rewrite (nth_map' _ _ _ []) by lia. reflexivity. }
  set (t := vnth (linspace 0 t_end n_interp) k).
  assert (TB : 0 <= t <= INR (length X - 1) * h).
  { split; [apply TS; apply nth_In; now rewrite linspace_length|].
    replace (INR (length X - 1) * h) with t_end by (unfold h; rewrite minus_INR by lia; cbn [INR]; field; lra).
    apply linspace_le; [lra|exact Hk]. }
  assert (Lx : length x = (order * dim)%nat).
  { rewrite DIM. destruct (VnX k Hk) as [Ev|(i & Hi & _ & Ev)]; fold x in Ev; rewrite Ev; [|apply SX; apply nth_In; exact Hi].
    destruct (cover_step h (length X - 1) t ltac:(lia) TB) as (i & Hi & Bi). destruct (PC i ltac:(lia)) as (EY & _ & _ & _ & _ & LZ).
    fold (vnth (linspace 0 t_end n_interp) k). fold t. rewrite EY by exact Bi. apply LZ. }
  assert (Lys : forall d, (d < order)%nat -> length (nth d ys []) = (order * dim)%nat).
  { intros d Hd. rewrite NYS by exact Hd. destruct (DV d Hd) as [_ V]. destruct (V k Hk) as (i & t' & _ & _ & _ & Ly & _). rewrite Ly. now symmetry. }
  split; [exact (VnX k Hk)|]. split; [exact LYS|].
  split. { intros d Hd. rewrite NYS by exact Hd. now apply DV. }
  specialize (HEE k 0%nat [] Hk). rewrite seq_nth in HEE by exact Hk. cbn [Nat.add] in HEE.
  assert (EDIM : (mwidth X / order)%nat = dim).
  { replace (mwidth X) with (order * dim)%nat; [rewrite Nat.mul_comm; apply Nat.div_mul; lia|].
    destruct X as [|x0 X']; [cbn in LX; lia|]. cbn [mwidth]. rewrite DIM. symmetry. apply SX. now left. }
  rewrite EDIM in HEE. fold x in HEE.
  assert (EXD : forall jj, (jj <= order)%nat -> nth jj (get_x_divisions x order :: map (fun a => get_x_divisions (nth k a []) order) ders) []
     = get_x_divisions (nth jj (x :: ys) []) order).
  { intros [|jj] Hjj; [reflexivity|]. cbn [nth]. rewrite (nth_map' _ _ _ []) by lia. now rewrite NYS by lia. }
  assert (LXY : forall jj, (jj <= order)%nat -> length (nth jj (x :: ys) []) = (order * dim)%nat).
  { intros [|jj] Hjj; [exact Lx|]. cbn [nth]. apply Lys. lia. }
  rewrite skipn_all2 in HEE by lia. rewrite app_nil_r in HEE.
  rewrite (flat_map_ext_in' _ (fun d => blk dim 0 (nth d (x :: ys) [])) (seq 0 order)) in HEE.
  2:{ intros jj Hjj. apply in_seq in Hjj. rewrite EXD by lia. rewrite (nth_get_x_divisions _ order dim) by (try apply LXY; lia). reflexivity. }
  match type of HEE with (do _ <- ?e; _) = _ => destruct e as [xin|?] eqn:EMODE; cbn [rbind] in HEE; [|discriminate] end.
  assert (MODE : (mode = "q" \/ mode = "x")%string /\ xin = if (mode =? "q")%string then flat_map (fun d => blk dim 0 (nth d (x :: ys) [])) (seq 0 order) else x).
  { destruct (String.eqb_spec mode "q"); [split; [now left|congruence]|]. destruct (String.eqb_spec mode "x"); [split; [now right|congruence]|discriminate]. }
  destruct MODE as [MODE EXIN]. split; [exact MODE|]. rewrite <- EXIN.
  set (f := lastn dim (F xin (nth k nU []) p)) in *. injection HEE as HEE. rewrite <- HEE.
  split; [now rewrite map_length, seq_length|]. intros jj Hjj. rewrite (nth_map' _ _ _ 0%nat) by now rewrite seq_length.
  rewrite seq_nth by exact Hjj. cbn [Nat.add]. split; [now rewrite map_length, seq_length|]. intros ii Hii.
  rewrite (nth_map' _ _ _ 0%nat) by now rewrite seq_length. rewrite seq_nth by exact Hii. cbn [Nat.add].
  rewrite Nat.add_1_r. cbn [nth]. rewrite (nth_map' _ _ _ []) by lia. rewrite <- NYS by exact Hjj.
  rewrite (nth_get_x_divisions _ order dim) by (try apply Lys; lia). unfold blk at 1. f_equal.
  replace (ii + S jj)%nat with (ii + jj + 1)%nat by lia. 
  destruct (Nat.ltb_spec (ii + jj + 1) order) as [Hl|Hl].
  - rewrite app_nth1 by (rewrite get_x_divisions_length; lia). rewrite (nth_get_x_divisions _ order dim) by (try exact Lx; lia). reflexivity.
  - rewrite app_nth2 by (rewrite get_x_divisions_length; lia). rewrite get_x_divisions_length.
    replace (ii + jj + 1 - order)%nat with 0%nat by lia. reflexivity.
Qed.

(** ** Array functions *)
Theorem arr_mod_ok x : length (arr_mod x) = length x /\
  forall i, (i < length x)%nat -> 0 <= vnth (arr_mod x) i /\ vnth (arr_mod x) i * vnth (arr_mod x) i = vsum (map (fun a => a * a) (nth i x [])).
Proof.
  assert (E : forall r, vmul r r = map (fun a => a * a) r).
  { induction r as [|a r IH]; [reflexivity|]. unfold vmul in *. cbn [map2 map]. now rewrite IH. }
  assert (N : forall r, 0 <= vsum (map (fun a => a * a) r)).
  { induction r as [|a r IH]; [cbn; lra|]. cbn [map]. unfold vsum in *. cbn [fold_right]. nra. }
  split; [apply map_length|]. intros i Hi. unfold arr_mod, vnth. rewrite (nth_map' _ _ _ []) by exact Hi. rewrite E.
  split; [apply sqrt_pos|]. apply sqrt_sqrt. apply N.
Qed.
Theorem arr_mod_zero x i : (i < length x)%nat -> (vnth (arr_mod x) i = 0 <-> Forall (fun a => a = 0) (nth i x [])).
Proof.
  intros Hi. destruct (arr_mod_ok x) as [_ H]. destruct (H i Hi) as [H0 H1].
  assert (Z : forall r, vsum (map (fun a => a * a) r) = 0 <-> Forall (fun a => a = 0) r).
  { assert (N : forall r, 0 <= vsum (map (fun a => a * a) r)).
    { induction r as [|a r IH]; [cbn; lra|]. cbn [map]. unfold vsum in *. cbn [fold_right]. nra. }
    induction r as [|a r IH]; [split; [constructor|reflexivity]|]. specialize (N r). cbn [map] in *. unfold vsum in *. cbn [fold_right] in *. split.
    - intros E. assert (a = 0) by nra. constructor; [assumption|]. apply IH. nra.
    - intros E. pose proof (Forall_inv E) as E1. apply Forall_inv_tail in E. cbv beta in E1. subst a. apply IH in E. nra. }
  rewrite <- Z, <- H1. split; [intros ->; ring|nra].
Qed.
Theorem arr_sum_ok x : length (arr_sum x) = length x /\ forall i, (i < length x)%nat -> vnth (arr_sum x) i = vsum (map Rabs (nth i x [])).
Proof. split; [apply map_length|]. intros i Hi. unfold arr_sum, vnth. now rewrite (nth_map' _ _ _ []) by exact Hi. Qed.

(** ** What is written in the caller's result *)
Theorem errors_written rows F mode M save w errs w' : dynamic_errors rows F mode M save w = Ok (errs, w') ->
  (if save then w_error w' = Some errs else w_error w' = w_error w) /\
  exists r0 r1, rows = Ok r0 /\ dynamic_errors_from_interp r0 F mode M = Ok (r1, errs) /\ w_interpolations w' = Some r1.
Proof.
  unfold dynamic_errors. destruct rows as [r0|e]; cbn [rbind]; [|discriminate].
  destruct (dynamic_errors_from_interp r0 F mode M) as [[r1 e1]|e] eqn:E; cbn [rbind]; [|discriminate].
  intros H. injection H as <- <-. cbn [w_error w_interpolations]. split; [destruct save; reflexivity|]. exists r0, r1. auto.
Qed.
(** The dictionary has "f" afterwards, and nothing else changes. *)
Theorem row_changed F mode M d d' e : errors_from_row F mode M d = Ok (d', e) ->
  (exists f, get KF d' = Ok f) /\ forall k, k <> KF -> get k d' = get k d.
Proof.
  unfold errors_from_row. intros H.
  repeat match type of H with
  | (do _ <- ?e; _) = Ok _ => destruct e as [?|?]; cbn [rbind] in H; [|discriminate]
  | (if ?b then _ else _) = Ok _ => destruct b; try discriminate
  | (let _ := ?e in _) = _ => cbv zeta in H
  end.
  injection H as <- _. split; [eexists; apply get_put_same|]. intros k Hk. now apply get_put_other.
Qed.

(** ** generate_G *)
Theorem generate_G_ok {P} solve (M : vec -> P -> mat) F_impl order x u (p : P) : (0 < order)%nat ->
  length (solve (M x p) (F_impl x u p)) = (length x / order)%nat ->
  generate_G solve M F_impl order x u p = Ok (solve (M x p) (F_impl x u p)).
Proof.
  intros HO L. unfold generate_G. rewrite L, Nat.eqb_refl. now rewrite firstn_all2 by lia.
Qed.
Theorem generate_G_multipliers {P} solve (M : vec -> P -> mat) F_impl order x u (p : P) :
  (length x / order < length (solve (M x p) (F_impl x u p)))%nat ->
  generate_G solve M F_impl order x u p = Err ValueError.
Proof.
  intros L. unfold generate_G. replace (_ =? _)%nat with false; [reflexivity|]. symmetry. apply Nat.eqb_neq. lia.
Qed.

Theorem interpolations_written rows F mode M w errs w' : dynamic_errors rows F mode M false w = Ok (errs, w') -> w_interpolations w = None -> w' <> w.
Proof.
  intros H N E. destruct (errors_written rows F mode M false w errs w' H) as (_ & r0 & r1 & _ & _ & C). rewrite E, N in C. discriminate.
Qed.
Theorem row_written F mode M d d' e : errors_from_row F mode M d = Ok (d', e) -> get KF d = Err KeyError -> d' <> d.
Proof. intros H N E. destruct (row_changed F mode M d d' e H) as [[f C] _]. rewrite E, N in C. discriminate. Qed.
Theorem params_written {P} (F : vec -> vec -> P -> vec) (p : P) u_other hermite X U t_end Xd scheme u_scheme d n order mode errs d' :
  dynamic_error u_other hermite X U t_end p F Xd scheme u_scheme (Some d) n order mode = Ok (errs, d') ->
  sp_order d <> Some order -> sp_order d' = Some order /\ d' <> d.
Proof.
  unfold dynamic_error. set (sp := Build_sparams (Some order) _ _ _). intros H N.
  assert (E : sp_order d' = Some order); [|split; [exact E|congruence]].
  match type of H with (do _ <- ?e; _) = _ => destruct e as [[[nX nU] sp1]|?] eqn:EI; cbn [rbind] in H; [|discriminate] end.
  repeat match type of H with (do _ <- ?e; _) = _ => destruct e as [?|?]; cbn [rbind] in H; [|discriminate] end.
  injection H as _ <-. change (Some order) with (sp_order sp). clearbody sp. clear - EI.
  unfold interpolated_array in EI.
  destruct (negb (mem scheme supported_schemes)); [discriminate|].
  destruct (negb (mem u_scheme supported_u_schemes)); [discriminate|].
  destruct (contains "j" scheme && (u_scheme =? "parab")%string); [discriminate|].
  destruct (contains "j" u_scheme && negb (contains "j" scheme)); [discriminate|].
  match type of EI with (do _ <- ?e; _) = _ => destruct e as [?|?]; cbn [rbind] in EI; [|discriminate] end.
  destruct (prepare_interp X U _ _) as [[U' old]|e]; cbn [rbind] in *; [|discriminate].
  destruct (calculate_missing _ _ _ _ _ _ _ _ _) as [[Xd' sp2]|e] eqn:EM; cbn [rbind] in EI; [|discriminate].
  assert (sp2 = sp1).
  { destruct (interpolate_u u_other U' old _ u_scheme sp2) as [v|e]; cbn [rbind] in EI; [|discriminate].
    destruct (scheme =? "hs_scipy")%string; [congruence|].
    match type of EI with (do _ <- ?e; _) = _ => destruct e as [?|?]; cbn [rbind] in EI; [|discriminate] end. congruence. }
  subst sp2. clear EI. unfold calculate_missing in EM.
  match type of EM with (do _ <- ?e; _) = _ => destruct e as [?|?]; cbn [rbind] in EM; [|discriminate] end.
  destruct (contains "hs" scheme && negb (scheme =? "hs_scipy")%string); [|congruence].
  destruct (sp_x_dot_c sp); [congruence|].
  match type of EM with (do _ <- ?e; _) = _ => destruct e as [?|?]; cbn [rbind] in EM; [|discriminate] end.
  destruct (sp_u_c sp); [|destruct (contains "parab" u_scheme)];
    repeat match type of EM with (do _ <- ?e; _) = _ => destruct e as [?|?]; cbn [rbind] in EM; [|discriminate] end;
    injection EM as _ <-; reflexivity.
Qed.
Theorem written_example : exists errs w', dynamic_errors (do d <- make_row 1 [[1]; [2]] [3] 0; Ok [d]) (fun x u => u) "x" 1 false {| w_interpolations := None; w_error := None |} = Ok (errs, w').
Proof. eexists _, _. reflexivity. Qed.
