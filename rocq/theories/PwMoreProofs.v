(** Counterexamples and small results about piecewise.py (C03, C10, C12,
    C14-C18). *)
From Coquelicot Require Import Coquelicot.
From Coq Require Import String.
From Verif Require Import Prelude PreludeFacts Poly PolyFacts PwModel PwInterpModel PwFacts PwSpec PwInterpSpec PwSchemeProofs PwAccelProofs PwMotionProofs PwDynProofs PwStepProofs PwInterpProofs.
Open Scope R_scope.
Open Scope vec_scope.

(** ** C03: rk4_restr ignores u_n *)
Lemma rk4_restr_refuted :
  exists (F : vec -> vec -> unit -> vec) x u u_n dt,
    same_size 1 F tt /\ length x = 1%nat /\
    ~ vzero (rk4_restr F x (rk4_step F x u u_n dt tt ((u +v u_n) /v 2)) u u_n dt tt).
Proof.
  exists (fun x u _ => if (length x =? 1)%nat then [vnth u 0] else []), [0], [0], [1], 1.
  split; [|split; [reflexivity|]].
  - intros x u Hx. rewrite Hx. reflexivity.
  - intros Hz. rewrite vzero_iff in Hz. specialize (Hz 0%nat ltac:(vm_compute; lia)).
    unfold rk4_restr, rk4_step, vnth in Hz. simpl in Hz. lra.
Qed.

(** ** C10: hsn recomputes the interior point with the first-order formula *)
Lemma hsn_refuted :
  exists (F : vec -> vec -> unit -> vec) x x_n u u_n u_c,
    order_form 2 1 F tt /\ length x = 2%nat /\ length x_n = 2%nat /\
    let f := F x u tt in let f_n := F x_n u_n tt in
    let x_c := hs_m_half_x 2 x x_n (accel 1 f) (accel 1 f_n) 1 in
    vzero (hs_m_accel_restr 2 x x_n (accel 1 f) (accel 1 f_n) 1 (accel 1 (F x_c u_c tt))) /\
    hs_interp 2 0 x x_n f f_n 1 1 (F x_c u_c tt) = x_n /\
    hs_interp 2 0 x x_n f f_n 1 1 (F (midpoint_of "hsn" x x_n f f_n 1) u_c tt) <> x_n.
Proof.
  set (F := fun (x u : vec) (_ : unit) => [vnth x 1; vnth x 0 + vnth u 0]).
  assert (HF : order_form 2 1 F tt).
  { intros x u Hx. destruct x as [|q [|v [|? ?]]]; try discriminate Hx. split; reflexivity. }
  exists F, [0; 0], [1; 4], [0], [11], [3 - 1 / 16].
  split; [exact HF|]. split; [reflexivity|]. split; [reflexivity|]. cbv zeta.
  set (x_c := hs_m_half_x 2 _ _ _ _ _).
  assert (Ec : x_c = [1 / 16; 1 / 2]).
  { unfold x_c. rewrite <- (hs_half_2 1) by reflexivity.
    unfold hs_mod_half_x, F, accel, put_first, put_last, get_first, get_last, set_slice, lastn, vnth, vec_len. simpl.
    unfold set_slice. simpl. f_equal; [field|f_equal; field]. }
  assert (Hr : vzero (hs_m_accel_restr 2 [0; 0] [1; 4] (accel 1 (F [0; 0] [0] tt)) (accel 1 (F [1; 4] [11] tt)) 1
                        (accel 1 (F x_c [3 - 1 / 16] tt)))).
  { rewrite Ec, <- (hs_2 1) by reflexivity.
    unfold hs_mod_accel_restr, F, accel, put_first, put_last, get_first, get_last, set_slice, lastn, vnth, vec_len. simpl.
    unfold set_slice. simpl.
    apply vzero_iff. intros [|[|i]] Hi; unfold vnth; simpl in *; [field|field|lia]. }
  split; [exact Hr|]. split.
  - destruct (hs_m_dynamics F tt 2 1 ltac:(lia) HF 1 ltac:(lra) [0; 0] [1; 4] [0] [11] eq_refl eq_refl [3 - 1 / 16] Hr) as [_ [_ [[E _] _]]].
    exact E.
  - intros E. apply (f_equal (fun l => coord 1 l 0 0)) in E.
    destruct (hs_motion_exists 2 1 ltac:(lia) 1 ltac:(lra) [0; 0] (accel 1 (F [0; 0] [0] tt))
       (accel 1 (F (midpoint_of "hsn" [0; 0] [1; 4] (F [0; 0] [0] tt) (F [1; 4] [11] tt) 1) [3 - 1 / 16] tt))
       (accel 1 (F [1; 4] [11] tt)) 0) as [c Hc].
    rewrite (hs_interp_value 2 1 ltac:(lia) 1 ltac:(lra) [0; 0] [1; 4] (F [0; 0] [0] tt) (F [1; 4] [11] tt) eq_refl eq_refl eq_refl 1
      (F (midpoint_of "hsn" [0; 0] [1; 4] (F [0; 0] [0] tt) (F [1; 4] [11] tt) 1) [3 - 1 / 16] tt) eq_refl c 0 0 0 Hc ltac:(lia) ltac:(lia)) in E.
    pose proof (hs_m_value 2 1 ltac:(lia) 1 ltac:(lra) [0; 0] [1; 4] (accel 1 (F [0; 0] [0] tt)) (accel 1 (F [1; 4] [11] tt)) eq_refl eq_refl eq_refl eq_refl
      (accel 1 (F (midpoint_of "hsn" [0; 0] [1; 4] (F [0; 0] [0] tt) (F [1; 4] [11] tt) 1) [3 - 1 / 16] tt)) eq_refl c 0 0 Hc ltac:(lia) ltac:(lia)) as V.
    rewrite <- (hs_2 1) in V by reflexivity. change (0 + 0)%nat with 0%nat in E. rewrite E in V.
    unfold hs_mod_accel_restr, F, accel, put_first, put_last, get_first, get_last, set_slice, lastn, vnth, vec_len, coord, vnth in V.
    simpl in V. unfold set_slice in V. simpl in V. lra.
Qed.

(** ** C14 *)
Lemma parab_nodes h y_0 y_c y_n m : h <> 0 -> length y_0 = m -> length y_c = m -> length y_n = m ->
  interp_parab 0 h y_0 y_c y_n = y_0 /\ interp_parab (h / 2) h y_0 y_c y_n = y_c /\ interp_parab h h y_0 y_c y_n = y_n /\
  interp_parab_j 0 h y_0 y_c y_n = y_0 /\ interp_parab_j (2 * h / 5) h y_0 y_c y_n = y_c /\ interp_parab_j h h y_0 y_c y_n = y_n.
Proof.
  intros Hh H0 Hc Hn. unfold interp_parab, interp_parab_j.
  repeat split; vext; field; auto.
Qed.
Lemma parab_exact h (a b c : vec) m : h <> 0 -> length a = m -> length b = m -> length c = m ->
  let u := fun t : R => a +v t *v b +v (t ^ 2) *v c in
  forall tau, interp_parab tau h (u 0) (u (h / 2)) (u h) = u tau /\
              interp_parab_j tau h (u 0) (u (2 * h / 5)) (u h) = u tau.
Proof.
  intros Hh Ha Hb Hc u tau. unfold interp_parab, interp_parab_j, u.
  split; vext; field; auto.
Qed.

(** np.interp (u_scheme "lin"): affine controls are reproduced, samples are hit. *)
Lemma increasing_from_le t0 ts t : increasing_from t0 ts -> In t ts -> t0 < t.
Proof.
  revert t0. induction ts as [|t1 ts IH]; simpl; [tauto|].
  intros t0 [H1 H2] [->|H]; auto. apply Rlt_trans with t1; auto.
Qed.
Lemma np_interp_affine (a b : vec) m ts : length a = m -> length b = m ->
  forall t0 t, increasing_from t0 ts -> t0 <= t -> (exists t1, In t1 (t0 :: ts) /\ t <= t1) ->
  np_interp t0 (a +v t0 *v b) (map (fun s => (s, a +v s *v b)) ts) t = a +v t *v b.
Proof.
  intros Ha Hb. induction ts as [|t1 ts IH]; intros t0 t Hinc H0 [t2 [Hin H2]]; simpl.
  - destruct Hin as [<-|[]]. replace t with t0 by lra. reflexivity.
  - destruct Hinc as [H1 Hinc]. destruct (Rle_dec t t0) as [Hle|Hgt].
    + replace t with t0 by lra. reflexivity.
    + destruct (Rle_dec t t1) as [Hle1|Hgt1].
      * vext. field. lra.
      * apply IH; auto; [lra|]. exists t2. split; auto.
        destruct Hin as [<-|Hin]; auto. exfalso. lra.
Qed.
Lemma np_interp_node t0 y0 rest m : length y0 = m -> (forall t y, In (t, y) rest -> length y = m) ->
  increasing_from t0 (map fst rest) ->
  forall t y, In (t, y) ((t0, y0) :: rest) -> np_interp t0 y0 rest t = y.
Proof.
  revert t0 y0. induction rest as [|[t1 y1] rest IH]; intros t0 y0 H0 Hm Hinc t y Hin.
  - destruct Hin as [E|[]]. injection E as <- <-. reflexivity.
  - simpl in Hinc. destruct Hinc as [H1 Hinc]. destruct Hin as [E|Hin].
    + injection E as <- <-. simpl. destruct (Rle_dec t0 t0); auto. lra.
    + assert (Ht : t0 < t).
      { destruct Hin as [E|Hin]; [injection E as <- <-; auto|].
        apply Rlt_trans with t1; auto. apply increasing_from_le with (map fst rest); auto.
        change t with (fst (t, y)). now apply in_map. }
      simpl. destruct (Rle_dec t t0); [lra|].
      destruct (Rle_dec t t1) as [Hle|Hgt].
      * destruct Hin as [E|Hin].
        { injection E as <- <-. specialize (Hm t1 y1 (or_introl eq_refl)). vext. field. lra. }
        exfalso. assert (t1 < t); [|lra]. apply increasing_from_le with (map fst rest); auto.
        change t with (fst (t, y)). now apply in_map.
      * apply IH; auto.
        -- apply (Hm t1). now left.
        -- intros t' y' H'. apply (Hm t'). now right.
Qed.

(** ** C16 *)
Section Expand.
  Context {P : Type}.
  Variable F : vec -> vec -> P -> vec.
  Variables (M n : nat) (p : P).
  Hypothesis HM : (0 < M)%nat.
  Hypothesis Hn : (0 < n)%nat.

  Lemma expand_F_cas_eq x u : length x = (M * n)%nat ->
    expand_F_cas F M x u p = skipn n x ++ F x u p.
  Proof. intros Hx. unfold expand_F_cas. rewrite (block_dim x M n) by auto. reflexivity. Qed.
  Lemma expand_F_order2 x u : M = 2%nat -> length x = (M * n)%nat -> length (F x u p) = n ->
    expand_F F M x u p = Ok (skipn n x ++ F x u p).
  Proof.
    intros -> Hx HF. unfold expand_F. rewrite (block_dim x 2 n) by auto.
    rewrite HF, skipn_length, Hx. replace (2 * n - n)%nat with n by lia. now rewrite Nat.eqb_refl.
  Qed.
  Lemma expand_F_other x u : M <> 2%nat -> length x = (M * n)%nat -> length (F x u p) = n ->
    expand_F F M x u p = Err AssertionError.
  Proof.
    intros H2 Hx HF. unfold expand_F. rewrite (block_dim x M n) by auto.
    rewrite HF, skipn_length, Hx.
    destruct (Nat.eqb_spec n (M * n - n)) as [E|E]; auto. exfalso. nia.
  Qed.
  Lemma divisions_concat x : length x = (M * n)%nat -> concat (get_x_divisions x M) = x.
  Proof.
    intros Hx. apply (list_ext 0).
    - rewrite (concat_length_const _ n).
      + rewrite get_x_divisions_length. lia.
      + intros l Hl. unfold get_x_divisions in Hl. apply in_map_iff in Hl. destruct Hl as [i [<- Hi]].
        apply in_seq in Hi. rewrite (block_dim x M n) by auto. rewrite slice_length. nia.
    - intros i Hi.
      assert (Hlen : forall l, In l (get_x_divisions x M) -> length l = n).
      { intros l Hl. unfold get_x_divisions in Hl. apply in_map_iff in Hl. destruct Hl as [k [<- Hk]].
        apply in_seq in Hk. rewrite (block_dim x M n) by auto. rewrite slice_length. nia. }
      rewrite (concat_length_const _ n) in Hi by auto. rewrite get_x_divisions_length in Hi.
      destruct (index_split M n i Hi) as [k [j [Hk [Hj ->]]]].
      rewrite nth_concat_const; auto; [|rewrite get_x_divisions_length; auto].
      rewrite (nth_get_x_divisions x M n) by auto. unfold slice. rewrite nth_firstn, nth_skipn'.
      destruct (Nat.ltb_spec j (n * (k + 1) - n * k)); [f_equal; lia|lia].
  Qed.
  Lemma hd_division_length x : length x = (M * n)%nat -> length (hd [] (get_x_divisions x M)) = n.
  Proof.
    intros Hx. unfold get_x_divisions. destruct M as [|m] eqn:E; [lia|].
    cbn [seq map hd]. rewrite <- E. rewrite (block_dim x M n) by (auto; lia). rewrite slice_length. nia.
  Qed.
  (** reduce_F after expand_F *)
  Lemma reduce_expand x u : length x = (M * n)%nat -> length (F x u p) = n ->
    reduce_F (expand_F_cas F M) (get_x_divisions x M) u p = F x u p.
  Proof.
    intros Hx HF. unfold reduce_F. rewrite hd_division_length, divisions_concat by auto.
    rewrite expand_F_cas_eq by auto. unfold lastn. destruct (Nat.eqb_spec n 0); [lia|].
    rewrite app_length, HF. replace (length (skipn n x) + n - n)%nat with (length (skipn n x)) by lia.
    rewrite skipn_app, Nat.sub_diag, skipn_all2 by lia. reflexivity.
  Qed.
  (** expand_F after reduce_F *)
  Lemma expand_reduce x u : order_form M n F p -> length x = (M * n)%nat ->
    expand_F_cas (fun y w q => reduce_F F (get_x_divisions y M) w q) M x u p = F x u p.
  Proof.
    intros HF Hx. unfold expand_F_cas. rewrite (block_dim x M n) by auto. unfold reduce_F.
    rewrite hd_division_length, divisions_concat by auto.
    destruct (HF x u Hx) as [HL HS]. rewrite <- HS. unfold lastn. destruct (Nat.eqb_spec n 0); [lia|].
    rewrite HL. replace (M * n - n)%nat with ((M - 1) * n)%nat by nia. apply firstn_skipn.
  Qed.

  (** ** C17 *)
  Lemma divisions_blocks x k : length x = (M * n)%nat -> (k < M)%nat ->
    nth k (get_x_divisions x M) [] = firstn n (skipn (k * n) x).
  Proof.
    intros Hx Hk. rewrite (nth_get_x_divisions x M n) by auto. unfold slice. replace (n * (k + 1) - n * k)%nat with n by lia. now rewrite Nat.mul_comm.
  Qed.
  Lemma reunite_divisions arr x : length x = (M * n)%nat -> length arr = (M * n)%nat ->
    reunite arr (get_x_divisions x M) M = x.
  Proof.
    intros Hx Ha. rewrite (reunite_concat arr M n); auto.
    - now apply divisions_concat.
    - apply get_x_divisions_length.
    - intros k Hk. rewrite (nth_get_x_divisions x M n) by auto. rewrite slice_length. nia.
  Qed.
End Expand.

(** ** C18 *)
Lemma firstn_S_nth {A} k (l : list A) d : (k < length l)%nat -> firstn (S k) l = firstn k l ++ [nth k l d].
Proof.
  revert l. induction k as [|k IH]; intros [|a l] H; simpl in *; try lia; auto.
  f_equal. apply IH. lia.
Qed.
Lemma firstn_In {A} k (l : list A) x : In x (firstn k l) -> In x l.
Proof. intros H. rewrite <- (firstn_skipn k l). apply in_or_app. now left. Qed.
Lemma firstn_add {A} a b (l : list A) : firstn (a + b) l = firstn a l ++ firstn b (skipn a l).
Proof. revert l. induction a as [|a IH]; intros [|x l]; simpl; auto; [now rewrite firstn_nil|]. f_equal. apply IH. Qed.
Lemma concat_firstn_divisions x m n k : length x = (m * n)%nat -> (0 < m)%nat -> (0 < n)%nat -> (k <= m)%nat ->
  concat (firstn k (get_x_divisions x m)) = firstn (k * n) x.
Proof.
  intros Hx Hm Hn. induction k as [|k IH]; intros Hk; [reflexivity|].
  rewrite (firstn_S_nth k _ []) by (rewrite get_x_divisions_length; lia).
  rewrite concat_app, IH by lia. simpl concat. rewrite app_nil_r.
  rewrite (divisions_blocks m n) by (auto; lia).
  replace (S k * n)%nat with (k * n + n)%nat by lia. symmetry. apply firstn_add.
Qed.
Lemma vzero_concat ls : vzero (concat ls) <-> (forall l, In l ls -> vzero l).
Proof.
  induction ls as [|l ls IH]; simpl.
  - split; [intros _ l []|intros _; constructor].
  - rewrite vzero_app, IH. split.
    + intros [H1 H2] l' [<-|H']; auto.
    + intros H. split; auto.
Qed.

Section Increase.
  Context {P : Type}.
  Variable F : vec -> vec -> vec -> P -> vec.
  Variables (n k m : nat) (p : P).
  Hypothesis Hk : (0 < k <= m)%nat.
  Hypothesis Hn : (0 < n)%nat.
  Hypothesis HF : forall x xd u, length x = (k * n)%nat -> length xd = (k * n)%nat -> length (F x xd u p) = (k * n)%nat.

  Lemma increase_order_x_ok x xd u : length x = (m * n)%nat -> length xd = (m * n)%nat ->
    exists r, increase_order_x F n m k x xd u p = Ok r /\ length r = (m * n)%nat /\
      (vzero r <->
        vzero (F (firstn (k * n) x) (firstn (k * n) xd) u p) /\
        forall i j, (k <= i < m)%nat -> (j < n)%nat -> coord n xd (i - 1) j = coord n x i j).
  Proof.
    intros Hx Hxd. unfold increase_order_x.
    destruct (Nat.leb_spec k m); [|lia]. rewrite Hx, Hxd, !Nat.eqb_refl. cbn [negb].
    rewrite !(concat_firstn_divisions _ m n k) by (auto; lia).
    set (old := F _ _ u p). assert (Lold : length old = (k * n)%nat).
    { apply HF; rewrite firstn_length; nia. }
    set (div := get_x_divisions old k). assert (Ldiv : length div = k) by apply get_x_divisions_length.
    set (inter := map _ (seq k (m - k))).
    assert (Hdiv : forall l, In l div -> length l = n).
    { intros l Hl. apply In_nth with (d := []) in Hl. destruct Hl as [i [Hi <-]]. unfold div.
      rewrite (divisions_blocks k n) by (auto; lia). rewrite firstn_length, skipn_length. nia. }
    assert (Hinter : forall i, (k <= i < m)%nat ->
      nth i (get_x_divisions x m) [] -v nth (i - 1) (get_x_divisions xd m) [] =
      firstn n (skipn (i * n) x) -v firstn n (skipn ((i - 1) * n) xd)).
    { intros i Hi. rewrite !(divisions_blocks m n) by (auto; lia). reflexivity. }
    eexists; split; [reflexivity|]. split.
    - rewrite (concat_length_const _ n).
      + rewrite !app_length, firstn_length, skipn_length, Ldiv. unfold inter. rewrite map_length, seq_length. nia.
      + intros l Hl. apply in_app_or in Hl. destruct Hl as [Hl|Hl]; [apply Hdiv; eapply firstn_In; eauto|].
        apply in_app_or in Hl. destruct Hl as [Hl|Hl].
        * unfold inter in Hl. apply in_map_iff in Hl. destruct Hl as [i [<- Hi]]. apply in_seq in Hi.
          rewrite Hinter by lia. rewrite vsub_length, !firstn_length, !skipn_length. nia.
        * apply Hdiv. rewrite <- (firstn_skipn (length div - 1) div). apply in_or_app. now right.
    - rewrite vzero_concat.
      assert (E1 : vzero old <-> forall l, In l div -> vzero l).
      { rewrite <- vzero_concat. unfold div. rewrite (divisions_concat k n) by (auto; lia). reflexivity. }
      fold old. rewrite E1. split.
      + intros H0. split.
        * intros l Hl. apply H0. rewrite <- (firstn_skipn (length div - 1) div) in Hl.
          apply in_app_or in Hl. apply in_or_app. destruct Hl as [Hl|Hl]; auto. right. apply in_or_app. auto.
        * intros i j Hi Hj. assert (HV : vzero (firstn n (skipn (i * n) x) -v firstn n (skipn ((i - 1) * n) xd))).
          { rewrite <- Hinter by auto. apply H0. apply in_or_app. right. apply in_or_app. left.
            unfold inter. apply in_map_iff. exists i. split; auto. apply in_seq. lia. }
          rewrite vzero_vsub_iff in HV by (rewrite !firstn_length, !skipn_length; nia).
          apply (f_equal (fun v => vnth v j)) in HV. rewrite !vnth_firstn, !vnth_skipn in HV.
          destruct (Nat.ltb_spec j n); [|lia]. unfold coord. auto.
      + intros [H1 H2] l Hl. apply in_app_or in Hl. destruct Hl as [Hl|Hl]; [apply H1; eapply firstn_In; eauto|].
        apply in_app_or in Hl. destruct Hl as [Hl|Hl].
        * unfold inter in Hl. apply in_map_iff in Hl. destruct Hl as [i [<- Hi]]. apply in_seq in Hi.
          rewrite Hinter by lia. apply vzero_vsub_iff; [rewrite !firstn_length, !skipn_length; nia|].
          apply vec_ext; [rewrite !firstn_length, !skipn_length; nia|].
          intros j Hj. rewrite firstn_length, skipn_length in Hj.
          rewrite !vnth_firstn, !vnth_skipn. destruct (Nat.ltb_spec j n); [|lia].
          symmetry. apply (H2 i j); lia.
        * apply H1. rewrite <- (firstn_skipn (length div - 1) div). apply in_or_app. now right.
  Qed.
End Increase.

(** ** C15 *)
Section Dict.
  Context {P : Type}.
  Variable u_other : string -> R -> Res vec.
  Variable hermite : list R -> list vec -> list vec -> R -> vec.

  Lemma missing_dict X U h (p : P) F Xd scheme u_scheme sp Xd' sp1 :
    calculate_missing X U h p F Xd scheme u_scheme sp = Ok (Xd', sp1) ->
    contains "hs" scheme = false \/ scheme = "hs_scipy"%string \/ sp_x_dot_c sp <> None -> sp1 = sp.
  Proof.
    intros H Hc. unfold calculate_missing in H.
    destruct (match Xd with Some d => _ | None => _ end); cbn [rbind] in H; [|discriminate].
    destruct (contains "hs" scheme) eqn:E1; cbn [andb] in H.
    - destruct (String.eqb_spec scheme "hs_scipy"); cbn [negb] in H; [injection H; auto|].
      destruct (sp_x_dot_c sp); [injection H; auto|]. destruct Hc as [Hc|[Hc|Hc]]; congruence.
    - injection H; auto.
  Qed.
  Lemma interpolation_keeps_dict X U h ts (p : P) F Xd scheme u_scheme sp nX nU sp1 :
    interpolated_array u_other hermite X U h ts p F Xd scheme u_scheme (Some sp) = Ok (nX, nU, sp1) ->
    contains "hs" scheme = false \/ scheme = "hs_scipy"%string \/ sp_x_dot_c sp <> None -> sp1 = sp.
  Proof.
    intros H Hc. unfold interpolated_array in H.
    destruct (negb _); [discriminate|]. destruct (negb _); [discriminate|].
    destruct (_ && _)%bool; [discriminate|]. destruct (_ && _)%bool; [discriminate|].
    destruct (if _ || _ then _ else _); cbn [rbind] in H; [|discriminate].
    destruct (prepare_interp X U h ts) as [[U' ot]|]; cbn [rbind] in H; [|discriminate].
    destruct (calculate_missing _ _ _ _ _ _ _ _ _) as [[X1 s1]|] eqn:E; cbn [rbind] in H; [|discriminate].
    apply missing_dict in E; auto. subst s1.
    destruct (match F with Some _ => _ | None => _ end); cbn [rbind] in H; [|discriminate].
    destruct (interpolate_u _ _ _ _ _ _); cbn [rbind] in H; [|discriminate].
    destruct (scheme =? "hs_scipy")%string; [injection H; auto|].
    destruct (mapm _ ts); cbn [rbind] in H; [|discriminate]. injection H; auto.
  Qed.
End Dict.

(** The second of two calls that share a dictionary uses the interior
    derivatives of the first call's data. *)
Section Stale.
  Variable u_other : string -> R -> Res vec.
  Variable hermite : list R -> list vec -> list vec -> R -> vec.
  Let F := fun (x u : vec) (_ : unit) => u.

  Definition one_step (a b : R) (U : vec * vec) (sp : sparams) :=
    interpolated_array u_other hermite [[a]; [b]] [fst U; snd U] 1 [1 / 2] tt (Some F) None "hs" "lin" (Some sp).

  Lemma one_step_value a b u0 u1 c sp1 xdc :
    calculate_missing [[a]; [b]] [[u0]; [u1]] 1 tt (Some F) None "hs" "lin" c = Ok ([[u0]; [u1]], sp1) ->
    sp_x_dot_c sp1 = Some [[xdc]] ->
    exists nU, one_step a b ([u0], [u1]) c =
      Ok ([hs_interp 1 0 [a] [b] [u0] [u1] (1 / 2) 1 [xdc]], nU, sp1).
  Proof.
    intros Hm Hx. unfold one_step, interpolated_array. cbn [fst snd].
    change (mem "hs" supported_schemes) with true. change (mem "lin" supported_u_schemes) with true.
    cbn [negb]. change (contains "j" "hs") with false. change (contains "j" "lin") with false.
    change (contains "hsn" "hs") with false. change (contains "trapz_n" "hs") with false. cbn [andb orb rbind].
    unfold prepare_interp. cbn [length Nat.add Nat.eqb rbind negb].
    change (pyget [1 / 2] (-1)) with (@Ok R (1 / 2)). cbn [rbind seq map].
    change (pyget [INR 0 * 1; INR 1 * 1] (-1)) with (@Ok R (INR 1 * 1)). cbn [rbind].
    destruct (Rlt_dec _ _) as [Y|_]; [exfalso; simpl in Y; lra|]. cbn [rbind]. rewrite Hm. cbn [rbind].
    unfold interpolate_u. change ("lin" =? "lin")%string with true. cbn iota.
    unfold np_interp_rows. cbn [mapm combine rbind].
    change ("hs" =? "hs_scipy")%string with false. cbn iota.
    rewrite (newpoint_segment [[a]; [b]] [[u0]; [u1]] 1 (1 / 2) "hs" sp1 0) by (try (simpl; unfold snap; lra); simpl; lia).
    eexists. unfold interp_scheme.
    change ("hs" =? "trapz_mod")%string with false. change ("hs" =? "trapz")%string with false.
    change ("hs" =? "trapz_n")%string with false. change (mem "hs" ["hs"%string; "hs_parab"%string]) with true. cbn iota.
    rewrite Hx. cbn [getkey rbind]. change (pyget [[xdc]] (Z.of_nat 0)) with (@Ok vec [xdc]). cbn [rbind nth Nat.add].
    replace (1 / 2 - INR 0 * 1) with (1 / 2) by (simpl; lra). reflexivity.
  Qed.

  Lemma hs_value a b u0 u1 xdc : hs_interp 1 0 [a] [b] [u0] [u1] (1 / 2) 1 [xdc] =
    [a + u0 / 2 + (-3 * u0 + 4 * xdc - u1) / 8 + (4 * u0 - 8 * xdc + 4 * u1) / 48].
  Proof.
    unfold hs_interp, get_x_divisions, interp_block, reunite, accum. simpl. unfold slice. simpl.
    unfold set_slice. simpl. f_equal. field.
  Qed.

  Lemma stale_dict_refuted :
    exists XA UA XB UB d1 r1 r2 r3 w1 w2 w3 d2 d3,
      one_step (fst XA) (snd XA) UA no_params = Ok (r1, w1, d1) /\   (* first data set *)
      one_step (fst XB) (snd XB) UB d1 = Ok (r2, w2, d2) /\          (* second, same dictionary *)
      one_step (fst XB) (snd XB) UB no_params = Ok (r3, w3, d3) /\   (* second, alone *)
      r2 <> r3.
  Proof.
    exists (0, 0), ([0], [0]), (0, 1), ([1], [1]).
    set (spA := Build_sparams None (Some [[(0 + 0) / 2]]) None (Some [[(0 + 0) / 2]])).
    set (spB := Build_sparams None (Some [[(1 + 1) / 2]]) None (Some [[(1 + 1) / 2]])).
    destruct (one_step_value 0 0 0 0 no_params spA ((0 + 0) / 2)) as [w1 E1]; try reflexivity.
    destruct (one_step_value 0 1 1 1 spA spA ((0 + 0) / 2)) as [w2 E2]; try reflexivity.
    destruct (one_step_value 0 1 1 1 no_params spB ((1 + 1) / 2)) as [w3 E3]; try reflexivity.
    repeat eexists; [exact E1|exact E2|exact E3|]. rewrite !hs_value. intros H. injection H as H. lra.
  Qed.
End Stale.
