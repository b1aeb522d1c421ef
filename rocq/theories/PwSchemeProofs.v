(** Step residuals, restrictions and acceleration restrictions have the same
    zero sets (C03, C04, C05). *)
From Verif Require Import Prelude PreludeFacts PwModel PwFacts PwSpec.
Open Scope R_scope.
Open Scope vec_scope.

Ltac len_hyps := do 20 try match goal with H : length ?y = _ |- context [length ?y] => rewrite H end.
Ltac len := repeat (rewrite ?vadd_length, ?vsub_length, ?vscale_length, ?vdivs_length,
  ?app_length); len_hyps; rewrite ?Nat.min_id; try lia; rewrite ?firstn_length, ?skipn_length; lia.

Ltac comp := repeat first
    [ rewrite vnth_vadd by len
    | rewrite vnth_vsub by len
    | rewrite vnth_vscale
    | rewrite vnth_vdivs ].

Ltac vext := apply vec_ext; [len | intros i Hi; comp].

Lemma vzero_opp_iff a b : b = (-1) *v a -> (vzero b <-> vzero a).
Proof. intros ->. apply vzero_scale_iff. lra. Qed.

Section First.
  Context {P : Type}.
  Variable F : vec -> vec -> P -> vec.
  Variable p : P.
  Variable N : nat.
  Hypothesis HF : same_size N F p.
  Variables x x_n u u_n u_c : vec.
  Variable dt : R.
  Hypothesis Hx : length x = N.
  Hypothesis Hxn : length x_n = N.

  Lemma Fx_len : forall y w, length y = N -> length (F y w p) = N.
  Proof. intros; apply HF; auto. Qed.

  Lemma euler_equiv : vzero (euler_restr F x x_n u u_n dt p) <-> x_n = euler_step F x u dt p.
  Proof.
    pose proof (Fx_len x u Hx). unfold euler_restr, euler_step. apply vzero_vsub_iff. len.
  Qed.

  Lemma trapz_equiv :
    vzero (trapz_opti_step F x_n x u u_n dt p) <-> vzero (trapz_restr F x x_n u u_n dt p).
  Proof.
    pose proof (Fx_len x u Hx). pose proof (Fx_len x_n u_n Hxn).
    apply vzero_opp_iff. unfold trapz_opti_step, trapz_restr. vext. ring.
  Qed.

  Lemma hs_equiv :
    vzero (hs_opti_step F x_n x u u_n dt p) <-> vzero (hs_restr F x x_n u u_n dt p).
  Proof. reflexivity. Qed.
  Lemma hs_parab_equiv :
    vzero (hs_parab_opti_step F x_n x u u_n dt p u_c) <-> vzero (hs_parab_restr F x x_n u u_n dt p u_c).
  Proof. reflexivity. Qed.

  Lemma rk4_equiv_const :
    vzero (rk4_restr F x x_n u u_n dt p) <-> x_n = rk4_step F x u u dt p u.
  Proof.
    unfold rk4_restr, rk4_step. apply vzero_vsub_iff.
    pose proof (Fx_len x u Hx) as L1.
    pose proof (Fx_len (x +v dt / 2 *v F x u p) u ltac:(len)) as L2.
    pose proof (Fx_len (x +v dt / 2 *v F (x +v dt / 2 *v F x u p) u p) u ltac:(len)) as L3.
    pose proof (Fx_len (x +v dt *v F (x +v dt / 2 *v F (x +v dt / 2 *v F x u p) u p) u p) u ltac:(len)) as L4.
    len.
  Qed.
End First.

Section Second.
  Context {P : Type}.
  Variable F : vec -> vec -> P -> vec.
  Variable p : P.
  Variable m : nat.
  Hypothesis HF : same_size (2 * m) F p.
  Variables x x_n u u_n u_c : vec.
  Variable dt : R.
  Hypothesis Hx : length x = (2 * m)%nat.
  Hypothesis Hxn : length x_n = (2 * m)%nat.

  Local Notation f := (skipn m (F x u p)).
  Local Notation f_n := (skipn m (F x_n u_n p)).
  Local Notation q := (firstn m x).
  Local Notation v := (skipn m x).
  Local Notation q_n := (firstn m x_n).
  Local Notation v_n := (skipn m x_n).

  Lemma len_F y w : length y = (2 * m)%nat -> length (F y w p) = (2 * m)%nat.
  Proof. apply HF. Qed.
  Lemma len_sF y w : length y = (2 * m)%nat -> length (skipn m (F y w p)) = m.
  Proof. intros H. rewrite skipn_length, len_F; auto. lia. Qed.
  Lemma lenq : length q = m. Proof. len. Qed.
  Lemma lenv : length v = m. Proof. len. Qed.
  Lemma lenqn : length q_n = m. Proof. len. Qed.
  Lemma lenvn : length v_n = m. Proof. len. Qed.
  Lemma lenf : length f = m. Proof. now apply len_sF. Qed.
  Lemma lenfn : length f_n = m. Proof. now apply len_sF. Qed.
  Hint Resolve lenq lenv lenqn lenvn lenf lenfn : core.
  Ltac facts := pose proof lenq as Lq; pose proof lenv as Lv; pose proof lenqn as Lqn;
    pose proof lenvn as Lvn; pose proof lenf as Lf; pose proof lenfn as Lfn.
  Ltac slen := facts; repeat (rewrite ?vadd_length, ?vsub_length, ?vscale_length, ?vdivs_length,
    ?app_length); lia.

  (** Normal forms: (position residual) ++ (velocity residual). *)
  Lemma trapz_mod_restr_nf :
    trapz_mod_restr F x x_n u u_n dt p =
    (q_n -v (q +v dt *v v +v (dt ^ 2 / 6) *v (f_n +v 2 *v f)))
    ++ (v_n -v (v +v (dt / 2) *v (f +v f_n))).
  Proof.
    unfold trapz_mod_restr. rewrite (half_dim m x Hx).
    rewrite (get_last_skipn m x Hx), (get_last_skipn m (F x u p)), (get_last_skipn m (F x_n u_n p)) by (apply len_F; auto).
    unfold get_first. rewrite (put_both m x Hx) by slen.
    rewrite <- (halves m x_n) at 1. apply vsub_app. slen.
  Qed.
  Lemma trapz_mod_opti_nf :
    trapz_mod_opti_step F x_n x u u_n dt p =
    (q +v dt *v v +v (dt ^ 2 / 6) *v (f_n +v 2 *v f) -v q_n)
    ++ (v +v (dt / 2) *v (f +v f_n) -v v_n).
  Proof.
    unfold trapz_mod_opti_step. rewrite (half_dim m x Hx).
    apply (set_both m x Hx); slen.
  Qed.
  Lemma trapz_mod_equiv :
    vzero (trapz_mod_opti_step F x_n x u u_n dt p) <-> vzero (trapz_mod_restr F x x_n u u_n dt p).
  Proof.
    rewrite trapz_mod_opti_nf, trapz_mod_restr_nf, !vzero_app.
    facts. 
    assert (E1 : q +v dt *v v +v (dt ^ 2 / 6) *v (f_n +v 2 *v f) -v q_n
            = (-1) *v (q_n -v (q +v dt *v v +v (dt ^ 2 / 6) *v (f_n +v 2 *v f)))) by (vext; ring).
    assert (E2 : v +v (dt / 2) *v (f +v f_n) -v v_n
            = (-1) *v (v_n -v (v +v (dt / 2) *v (f +v f_n)))) by (vext; ring).
    rewrite (vzero_opp_iff _ _ E1), (vzero_opp_iff _ _ E2). tauto.
  Qed.

  (** Interior states. *)
  Definition hsm_xc (ff ffn : vec) : vec :=
    ((13 *v q +v 3 *v q_n) /v 16 +v (5 * dt / 16) *v v +v (dt ^ 2 / 96) *v (4 *v ff -v ffn))
    ++ ((v +v v_n) /v 2 +v (dt / 8) *v (ff -v ffn)).
  Definition hsj_xc (ff ffn : vec) : vec :=
    (q +v (dt / 625) *v (218 *v v +v 32 *v v_n) +v (dt ^ 2 / 1875) *v (82 *v ff -v 28 *v ffn))
    ++ ((81 *v v +v 44 *v v_n) /v 125 +v (dt / 125) *v (18 *v ff -v 12 *v ffn)).
  Lemma hsm_xc_length ff ffn : length ff = m -> length ffn = m -> length (hsm_xc ff ffn) = (2 * m)%nat.
  Proof. intros. unfold hsm_xc. slen. Qed.
  Lemma hsj_xc_length ff ffn : length ff = m -> length ffn = m -> length (hsj_xc ff ffn) = (2 * m)%nat.
  Proof. intros. unfold hsj_xc. slen. Qed.

  Lemma hs_mod_parab_restr_nf :
    let f_c := skipn m (F (hsm_xc f f_n) u_c p) in
    hs_mod_parab_restr F x x_n u u_n dt p u_c =
    (q_n -v (q +v dt *v v +v (dt ^ 2 / 6) *v (f +v 2 *v f_c)))
    ++ (v_n -v (v +v (dt / 6) *v (f +v 4 *v f_c +v f_n))).
  Proof.
    cbv zeta. unfold hs_mod_parab_restr. rewrite (half_dim m x Hx).
    rewrite (get_last_skipn m x Hx), (get_last_skipn m x_n Hxn), (get_last_skipn m (F x u p)), (get_last_skipn m (F x_n u_n p)) by (apply len_F; auto).
    unfold get_first. rewrite (put_both' m x Hx) by slen. fold (hsm_xc f f_n).
    pose proof (hsm_xc_length f f_n lenf lenfn) as Lc.
    rewrite (get_last_skipn m (F (hsm_xc f f_n) u_c p)) by (apply len_F; auto).
    pose proof (len_sF _ u_c Lc) as Lfc.
    rewrite (put_both m x Hx).
    - rewrite <- (halves m x_n) at 1. apply vsub_app. slen.
    - slen.
    - slen.
  Qed.
  Lemma hs_mod_parab_opti_nf :
    let f_c := skipn m (F (hsm_xc f f_n) u_c p) in
    hs_mod_parab_opti_step F x_n x u u_n dt p u_c =
    (q +v dt *v v +v (dt ^ 2 / 6) *v (f +v 2 *v f_c) -v q_n)
    ++ (v +v (dt / 6) *v (f +v 4 *v f_c +v f_n) -v v_n).
  Proof.
    cbv zeta. unfold hs_mod_parab_opti_step. rewrite (half_dim m x Hx).
    rewrite (set_both' m x Hx) by slen. fold (hsm_xc f f_n).
    pose proof (hsm_xc_length f f_n lenf lenfn) as Lc.
    pose proof (len_sF _ u_c Lc) as Lfc.
    apply (set_both m x Hx); slen.
  Qed.
  Lemma hsj_parab_restr_nf :
    let f_c := skipn m (F (hsj_xc f f_n) u_c p) in
    hsj_parab_restr F x x_n u u_n dt p u_c =
    (q_n -v (q +v dt *v v +v (dt ^ 2 / 72) *v (9 *v f +v 25 *v f_c +v 2 *v f_n)))
    ++ (v_n -v (v +v (dt / 36) *v (3 *v f +v 25 *v f_c +v 8 *v f_n))).
  Proof.
    cbv zeta. unfold hsj_parab_restr. rewrite (half_dim m x Hx).
    rewrite (get_last_skipn m x Hx), (get_last_skipn m x_n Hxn), (get_last_skipn m (F x u p)), (get_last_skipn m (F x_n u_n p)) by (apply len_F; auto).
    unfold get_first. rewrite (put_both' m x Hx) by slen. fold (hsj_xc f f_n).
    pose proof (hsj_xc_length f f_n lenf lenfn) as Lc.
    rewrite (get_last_skipn m (F (hsj_xc f f_n) u_c p)) by (apply len_F; auto).
    pose proof (len_sF _ u_c Lc) as Lfc.
    rewrite (put_both m x Hx).
    - rewrite <- (halves m x_n) at 1. apply vsub_app. slen.
    - slen.
    - slen.
  Qed.
  Lemma hsj_parab_opti_nf :
    let f_c := skipn m (F (hsj_xc f f_n) u_c p) in
    hsj_parab_opti_step F x_n x u u_n dt p u_c =
    (q +v dt *v v +v (dt ^ 2 / 72) *v (9 *v f +v 25 *v f_c +v 2 *v f_n) -v q_n)
    ++ (v +v (dt / 36) *v (3 *v f +v 25 *v f_c +v 8 *v f_n) -v v_n).
  Proof.
    cbv zeta. unfold hsj_parab_opti_step. rewrite (half_dim m x Hx).
    rewrite (set_both' m x Hx) by slen. fold (hsj_xc f f_n).
    pose proof (hsj_xc_length f f_n lenf lenfn) as Lc.
    pose proof (len_sF _ u_c Lc) as Lfc.
    apply (set_both m x Hx); slen.
  Qed.

  Lemma opp_pair A B C E : length A = m -> length B = m -> length C = m -> length E = m ->
    (vzero ((A -v B) ++ (C -v E)) <-> vzero ((B -v A) ++ (E -v C))).
  Proof.
    intros. rewrite !vzero_app.
    assert (E1 : A -v B = (-1) *v (B -v A)) by (vext; ring).
    assert (E2 : C -v E = (-1) *v (E -v C)) by (vext; ring).
    rewrite (vzero_opp_iff _ _ E1), (vzero_opp_iff _ _ E2). tauto.
  Qed.

  Lemma hs_mod_parab_equiv :
    vzero (hs_mod_parab_opti_step F x_n x u u_n dt p u_c)
    <-> vzero (hs_mod_parab_restr F x x_n u u_n dt p u_c).
  Proof.
    rewrite hs_mod_parab_opti_nf, hs_mod_parab_restr_nf.
    pose proof (len_sF _ u_c (hsm_xc_length f f_n lenf lenfn)) as Lfc.
    apply opp_pair; slen.
  Qed.
  Lemma hsj_parab_equiv :
    vzero (hsj_parab_opti_step F x_n x u u_n dt p u_c)
    <-> vzero (hsj_parab_restr F x x_n u u_n dt p u_c).
  Proof.
    rewrite hsj_parab_opti_nf, hsj_parab_restr_nf.
    pose proof (len_sF _ u_c (hsj_xc_length f f_n lenf lenfn)) as Lfc.
    apply opp_pair; slen.
  Qed.
End Second.

(** The non-parabolic versions are the parabolic ones at the default interior control. *)
Lemma hs_mod_restr_parab {P} (F : vec -> vec -> P -> vec) x x_n u u_n dt p :
  hs_mod_restr F x x_n u u_n dt p = hs_mod_parab_restr F x x_n u u_n dt p ((u +v u_n) /v 2).
Proof. reflexivity. Qed.
Lemma hs_mod_opti_parab {P} (F : vec -> vec -> P -> vec) x x_n u u_n dt p :
  hs_mod_opti_step F x_n x u u_n dt p = hs_mod_parab_opti_step F x_n x u u_n dt p ((u +v u_n) /v 2).
Proof. reflexivity. Qed.
Lemma hsj_restr_parab {P} (F : vec -> vec -> P -> vec) x x_n u u_n dt p :
  hsj_restr F x x_n u u_n dt p = hsj_parab_restr F x x_n u u_n dt p ((6/10) *v u +v (4/10) *v u_n).
Proof. reflexivity. Qed.
Lemma hsj_opti_parab {P} (F : vec -> vec -> P -> vec) x x_n u u_n dt p :
  hsj_opti_step F x_n x u u_n dt p = hsj_parab_opti_step F x_n x u u_n dt p ((6/10) *v u +v (4/10) *v u_n).
Proof. reflexivity. Qed.
Lemma hs_restr_parab {P} (F : vec -> vec -> P -> vec) x x_n u u_n dt p :
  hs_restr F x x_n u u_n dt p = hs_parab_restr F x x_n u u_n dt p ((u +v u_n) /v 2).
Proof. reflexivity. Qed.
