(** Proofs about the integrators of [PwModel] (C01, C02). *)
From Coq Require Import String.
From Verif Require Import Prelude PreludeFacts PwModel PwFacts PwSpec PwInterpSpec.
Open Scope R_scope.
Open Scope vec_scope.
Open Scope list_scope.

(** Reference trajectory. *)
Fixpoint traj (g : nat -> vec -> vec) (ii n : nat) (x : vec) : list vec :=
  match n with
  | O => [x]
  | S n' => x :: traj g (S ii) n' (g ii x)
  end.
Lemma traj_length g ii n x : length (traj g ii n x) = S n.
Proof. revert ii x; induction n; intros; simpl; auto. Qed.
Lemma traj_nth0 g ii n x : nth 0 (traj g ii n x) [] = x.
Proof. destruct n; reflexivity. Qed.
Lemma traj_step g ii n x i : (i < n)%nat ->
  nth (S i) (traj g ii n x) [] = g (ii + i)%nat (nth i (traj g ii n x) []).
Proof.
  revert ii x i; induction n; intros ii x i Hi; [lia|].
  destruct i as [|i].
  - cbn [traj nth]. rewrite traj_nth0, Nat.add_0_r. reflexivity.
  - cbn [traj]. change (nth (S (S i)) (x :: traj g (S ii) n (g ii x)) [])
      with (nth (S i) (traj g (S ii) n (g ii x)) []).
    rewrite IHn by lia. cbn [nth]. f_equal. lia.
Qed.
Lemma traj_ext g g' ii n x : (forall i y, (ii <= i < ii + n)%nat -> g i y = g' i y) ->
  traj g ii n x = traj g' ii n x.
Proof.
  revert ii x; induction n; intros ii x H; simpl; auto.
  rewrite H by lia. f_equal. apply IHn. intros; apply H; lia.
Qed.
Lemma traj_snoc g ii n x :
  traj g ii (S n) x = traj g ii n x ++ [g (ii + n)%nat (nth n (traj g ii n x) [])].
Proof.
  revert ii x; induction n; intros ii x.
  - simpl. now rewrite Nat.add_0_r.
  - change (traj g ii (S (S n)) x) with (x :: traj g (S ii) (S n) (g ii x)).
    rewrite IHn. cbn [traj app nth]. f_equal. f_equal. f_equal. f_equal. lia.
Qed.

Lemma loop_ok step g ii n x :
  (forall i y, (ii <= i < ii + n)%nat -> step i y = Ok (g i y)) ->
  loop step ii n x = Ok (traj g ii n x).
Proof.
  revert ii x; induction n; intros ii x H; simpl; auto.
  rewrite H by lia. simpl. rewrite IHn by (intros; apply H; lia). reflexivity.
Qed.

Lemma loop_err step e g ii n m x : (m < n)%nat ->
  (forall i y, (ii <= i < ii + m)%nat -> step i y = Ok (g i y)) ->
  (forall y, step (ii + m)%nat y = Err e) ->
  loop step ii n x = Err e.
Proof.
  revert ii m x; induction n; intros ii m x Hm H He; [lia|].
  destruct m as [|m].
  - simpl. rewrite Nat.add_0_r in He. now rewrite He.
  - simpl. rewrite H by lia. simpl. rewrite (IHn (S ii) m); auto.
    + lia.
    + intros; apply H; lia.
    + intros y. replace (S ii + m)%nat with (ii + S m)%nat by lia. apply He.
Qed.

Lemma tape_len_wf u : tape_wf u -> tape_len u = length (tape_rows u).
Proof.
  intros (Hne & Hr & H1). unfold tape_len.
  destruct (Nat.eqb_spec (length (concat (tape_rows u))) 1) as [E|E].
  - destruct (tape_rows u) as [|r [|r' rs]]; simpl in *; try congruence; auto.
    exfalso. rewrite !app_length in E.
    assert (length r <> 0)%nat by (intros Z; apply (Hr r); auto; destruct r; auto; discriminate).
    assert (length r' <> 0)%nat by (intros Z; apply (Hr r'); auto; destruct r'; auto; discriminate).
    lia.
  - destruct (tape_2d u) eqn:E2; simpl; auto.
    destruct (Nat.eqb_spec (length (tape_rows u)) 1) as [L|L]; auto.
    rewrite H1 by auto. auto.
Qed.
Lemma tape_wf_pos u : tape_wf u -> (0 < length (tape_rows u))%nat.
Proof. intros (H & _). destruct (tape_rows u); [congruence|simpl; lia]. Qed.

Section Integr.
  Context {P : Type}.
  Variable F : vec -> vec -> P -> vec.
  Variable root : (vec -> vec) -> vec -> vec.
  Variable x_0 : vec.
  Variable u : tape.
  Variable dt : R.
  Variable p : P.
  Hypothesis Hu : tape_wf u.
  Let n := length (tape_rows u).
  Let U i := nth i (tape_rows u) [].

  Lemma traj_trajectory g k : trajectory k x_0 g (traj g 0 k x_0).
  Proof.
    split; [apply traj_length|]. split; [apply traj_nth0|].
    intros i Hi. rewrite traj_step by auto. reflexivity.
  Qed.

  Lemma integrate_euler_spec : exists xs,
    integrate_euler F x_0 u dt p = Ok xs /\
    trajectory n x_0 (fun i x => euler_step F x (U i) dt p) xs.
  Proof.
    exists (traj (fun i x => euler_step F x (U i) dt p) 0 n x_0). split.
    - unfold integrate_euler. rewrite (tape_len_wf u Hu). apply loop_ok.
      intros i y Hi. rewrite (pyget_nat _ i []) by lia. reflexivity.
    - apply traj_trajectory.
  Qed.

  Lemma integrate_with_spec step last g gl :
    (forall i x, (S i < n)%nat -> step i x (U i) (U (S i)) = Ok (g i x)) ->
    (forall x, last 0%nat x (U (n - 1)) (U (n - 1)) = Ok (gl x)) ->
    integrate_with step last x_0 u =
    Ok (traj (fun i x => if (S i <? n)%nat then g i x else gl x) 0 n x_0).
  Proof.
    intros Hs Hl. pose proof (tape_wf_pos u Hu) as Hp. fold n in Hp.
    unfold integrate_with. rewrite (tape_len_wf u Hu). fold n.
    rewrite (loop_ok _ (fun i x => if (S i <? n)%nat then g i x else gl x)).
    2:{ intros i y Hi. rewrite (pyget_nat _ i []) by (fold n; lia).
        rewrite (pyget_nat _ (i + 1) []) by (fold n; lia). simpl.
        rewrite Nat.add_1_r. change (nth i (tape_rows u) []) with (U i).
        change (nth (S i) (tape_rows u) []) with (U (S i)).
        rewrite Hs by lia. destruct (Nat.ltb_spec (S i) n); [auto|lia]. }
    cbn [rbind]. rewrite (pyget_last _ []) by apply Hu. cbn [rbind].
    rewrite (pyget_last _ []).
    2:{ intros E. pose proof (traj_length (fun i x => if (S i <? n)%nat then g i x else gl x) 0 (n - 1) x_0) as L.
        rewrite E in L. discriminate. }
    cbn [rbind]. rewrite traj_length. simpl (S (n - 1) - 1)%nat. rewrite Nat.sub_0_r.
    fold n. change (nth (n - 1) (tape_rows u) []) with (U (n - 1)). rewrite Hl. cbn [rbind].
    f_equal. replace n with (S (n - 1)) at 4 by lia. rewrite traj_snoc. f_equal. f_equal.
    cbn [Nat.add]. destruct (Nat.ltb_spec (S (n - 1)) n); [lia|]. reflexivity.
  Qed.

  Lemma integrate_with_traj step last g gl :
    (forall i x, (S i < n)%nat -> step i x (U i) (U (S i)) = Ok (g i x)) ->
    (forall x, last 0%nat x (U (n - 1)) (U (n - 1)) = Ok (gl x)) ->
    exists xs, integrate_with step last x_0 u = Ok xs /\
      trajectory n x_0 (fun i x => if (S i <? n)%nat then g i x else gl x) xs.
  Proof.
    intros Hs Hl. eexists. split; [apply integrate_with_spec; eauto|].
    apply traj_trajectory.
  Qed.

  Lemma mid_controls_nth rows i : (S i < length rows)%nat ->
    nth i (mid_controls rows) [] = (nth i rows [] +v nth (S i) rows []) /v 2.
  Proof.
    intros H. unfold mid_controls.
    assert (L : length (butlastn 1 rows) = (length rows - 1)%nat).
    { unfold butlastn. simpl. rewrite firstn_length. lia. }
    rewrite (nth_map2 _ _ _ i [] []) by (rewrite ?L, ?skipn_length; lia).
    unfold butlastn. simpl (1 =? 0)%nat. cbv iota. rewrite nth_firstn, nth_skipn'.
    destruct (Nat.ltb_spec i (length rows - 1)); [reflexivity|lia].
  Qed.
  Lemma mid_controls_length rows : length (mid_controls rows) = (length rows - 1)%nat.
  Proof.
    unfold mid_controls. rewrite map2_length, skipn_length. unfold butlastn. simpl.
    rewrite firstn_length. lia.
  Qed.

  Lemma integrate_rk4_spec uc :
    (forall c, uc = Some c -> (n - 1 <= length c)%nat) ->
    exists xs, integrate_rk4 F x_0 u dt p uc = Ok xs /\
    trajectory n x_0
      (fun i x => if (S i <? n)%nat
                  then rk4_step F x (U i) (U (S i)) dt p
                         (match uc with Some c => nth i c [] | None => (U i +v U (S i)) /v 2 end)
                  else rk4_step F x (U (n - 1)) (U (n - 1)) dt p (U (n - 1))) xs.
  Proof.
    intros Hc. unfold integrate_rk4.
    apply (integrate_with_traj _ _
      (fun i x => rk4_step F x (U i) (U (S i)) dt p
         (match uc with Some c => nth i c [] | None => (U i +v U (S i)) /v 2 end))
      (fun x => rk4_step F x (U (n - 1)) (U (n - 1)) dt p (U (n - 1)))).
    - intros i x Hi. destruct uc as [c|].
      + rewrite (pyget_nat _ i []). { reflexivity. } specialize (Hc c eq_refl). lia.
      + rewrite (pyget_nat _ i []) by (rewrite mid_controls_length; fold n; lia). cbn [rbind].
        rewrite mid_controls_nth by (fold n; auto). reflexivity.
    - reflexivity.
  Qed.

  Lemma integrate_implicit_spec step :
    exists xs, integrate_with (fun _ x a b => Ok (step x a b dt p)) (fun _ x a b => Ok (step x a b dt p)) x_0 u = Ok xs /\
    trajectory n x_0
      (fun i x => if (S i <? n)%nat then step x (U i) (U (S i)) dt p
                  else step x (U (n - 1)) (U (n - 1)) dt p) xs.
  Proof.
    apply (integrate_with_traj _ _ (fun i x => step x (U i) (U (S i)) dt p)
             (fun x => step x (U (n - 1)) (U (n - 1)) dt p)); reflexivity.
  Qed.
  Lemma integrate_parab_spec stepc step (c : list vec) : (n - 1 <= length c)%nat ->
    exists xs, integrate_with (fun ii x a b => do c <- pyget c (Z.of_nat ii); Ok (stepc x a b dt p c))
                 (fun _ x a b => Ok (step x a b dt p)) x_0 u = Ok xs /\
    trajectory n x_0
      (fun i x => if (S i <? n)%nat then stepc x (U i) (U (S i)) dt p (nth i c [])
                  else step x (U (n - 1)) (U (n - 1)) dt p) xs.
  Proof.
    intros Hc.
    apply (integrate_with_traj _ _ (fun i x => stepc x (U i) (U (S i)) dt p (nth i c []))
             (fun x => step x (U (n - 1)) (U (n - 1)) dt p)).
    - intros i x Hi. rewrite (pyget_nat _ i []) by lia. reflexivity.
    - reflexivity.
  Qed.
  (** Missing mid controls: IndexError, nothing returned. *)
  Lemma integrate_parab_missing stepc last (c : list vec) : (length c < n - 1)%nat ->
    integrate_with (fun ii x a b => do c <- pyget c (Z.of_nat ii); Ok (stepc x a b dt p c))
                 last x_0 u = Err IndexError.
  Proof.
    intros Hc. unfold integrate_with. rewrite (tape_len_wf u Hu). fold n.
    rewrite (loop_err _ IndexError (fun i x => stepc x (U i) (U (S i)) dt p (nth i c [])) 0 _ (length c)); auto.
    - intros i y Hi. rewrite (pyget_nat _ i []) by (fold n; lia).
      rewrite (pyget_nat _ (i + 1) []) by (fold n; lia). cbn [rbind].
      rewrite (pyget_nat c i []) by lia. rewrite Nat.add_1_r. reflexivity.
    - intros y. cbn [Nat.add]. rewrite (pyget_nat _ (length c) []) by (fold n; lia).
      rewrite (pyget_nat _ (length c + 1) []) by (fold n; lia). cbn [rbind].
      rewrite pyget_nat_out by lia. reflexivity.
  Qed.
End Integr.

(** Single step with several controls: shape (1, k), k >= 2 (the shape the
    decorator itself produces) is not understood by the loops. *)
Lemma tape_single_row_len r : (2 <= length r)%nat ->
  tape_len {| tape_2d := true; tape_rows := [r] |} = length r.
Proof.
  intros H. unfold tape_len. cbn [tape_rows tape_2d concat]. rewrite app_nil_r.
  destruct (Nat.eqb_spec (length r) 1); [lia|]. reflexivity.
Qed.
Lemma integrate_euler_single_row {P} (F : vec -> vec -> P -> vec) x_0 r dt p :
  (2 <= length r)%nat ->
  integrate_euler F x_0 {| tape_2d := true; tape_rows := [r] |} dt p = Err IndexError.
Proof.
  intros H. unfold integrate_euler. rewrite tape_single_row_len by auto.
  apply (loop_err _ _ (fun i x => euler_step F x r dt p) 0 _ 1); [lia| |].
  - intros i y Hi. replace i with 0%nat by lia. reflexivity.
  - intros y. reflexivity.
Qed.
Lemma integrate_with_single_row step last x_0 r :
  (2 <= length r)%nat ->
  integrate_with step last x_0 {| tape_2d := true; tape_rows := [r] |} = Err IndexError.
Proof.
  intros H. unfold integrate_with. rewrite tape_single_row_len by auto.
  rewrite (loop_err _ IndexError (fun i x => []) 0 _ 0); auto; try lia.
Qed.
(** The empty tape: Euler returns the initial state alone, the others fail on u[-1]. *)
Lemma integrate_with_empty step last x_0 b :
  integrate_with step last x_0 {| tape_2d := b; tape_rows := [] |} = Err IndexError.
Proof. destruct b; reflexivity. Qed.

(** Causality. *)
Lemma trajectory_prefix n n' x0 g g' xs xs' k :
  trajectory n x0 g xs -> trajectory n' x0 g' xs' -> (k <= n)%nat -> (k <= n')%nat ->
  (forall i x, (i < k)%nat -> g i x = g' i x) ->
  forall i, (i <= k)%nat -> nth i xs [] = nth i xs' [].
Proof.
  intros (_ & H0 & H) (_ & H0' & H') Hk Hk' Hg i.
  induction i as [|i IH]; intros Hi.
  - congruence.
  - rewrite H, H' by lia. rewrite IH by lia. apply Hg. lia.
Qed.
Lemma trajectory_unique n x0 g xs xs' :
  trajectory n x0 g xs -> trajectory n x0 g xs' -> xs = xs'.
Proof.
  intros T T'. apply (list_ext []).
  - destruct T as (L & _), T' as (L' & _). congruence.
  - intros i Hi. apply (trajectory_prefix n n x0 g g xs xs' n); auto.
    destruct T as (L & _). lia.
Qed.
