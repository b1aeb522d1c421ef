(** Cases of the theorems on labels, curves and names of files. *)
From Coq Require Import String Ascii.
From Verif Require Import Prelude PreludeFacts AnalysisModel AnalysisPhProofs DispatchSpec SymModel PlotModel PlotSpec PlotProofs PlotNameProofs.
Open Scope R_scope.
Open Scope list_scope.

(** ** The samples of linspace: the last one is not drawn *)
Lemma linspace_drawn {A} (ys : list A) label N end_t : (0 < N)%nat -> 0 < end_t -> (2 <= length ys)%nat ->
  exists ps, plot_by_segments (linspace 0 end_t (length ys)) ys label N end_t = Ok ps /\
    concat (map pc_y ps) = firstn (length ys - 1) ys.
Proof.
  intros HN He Hy. destruct (drawn N end_t (linspace 0 end_t (length ys)) ys label HN He (linspace_nondecreasing 0 end_t _ He)
    ltac:(now rewrite linspace_length)) as (ps & m & E & L & _ & Y & M).
  exists ps. split; [exact E|]. rewrite Y. f_equal. rewrite linspace_length in *.
  assert (M1 : ~ (length ys - 1 < m)%nat).
  { intros X. apply M in X; [|lia]. rewrite linspace_last in X by lia. lra. }
  assert (M2 : (length ys - 2 < m)%nat).
  { apply M; [lia|]. apply linspace_below; [exact He|lia]. }
  lia.
Qed.
Lemma graph_ok {A} scheme l t (rows : list A) N : sch_to_color scheme <> Err KeyError -> sch_to_lab scheme = Ok l -> (0 < N)%nat ->
  0 < vnth t (length t - 1) -> (2 <= length rows)%nat ->
  exists ps, graph_pieces scheme t rows N = Ok ps /\ concat (map pc_y ps) = firstn (length rows - 1) rows.
Proof.
  intros C L HN He Hr. unfold graph_pieces. destruct (Nat.eqb_spec N 0) as [|_]; [lia|].
  destruct (sch_to_color scheme) as [c|e] eqn:E.
  - cbn [rbind]. rewrite L. cbn [rbind]. now apply linspace_drawn.
  - exfalso. apply C. f_equal. apply (label_errors scheme). now right; right.
Qed.
Lemma label_once {A} (ys : list A) label N end_t ps : (0 < N)%nat -> 0 < end_t -> (2 <= length ys)%nat ->
  plot_by_segments (linspace 0 end_t (length ys)) ys label N end_t = Ok ps ->
  forall l p, nth_error ps l = Some p -> pc_label p = (if (l =? 0)%nat then Some label else None).
Proof.
  intros HN He Hy E l p H.
  assert (X := segment_labels N end_t (linspace 0 end_t (length ys)) ys label HN He (linspace_nondecreasing 0 end_t _ He) ltac:(now rewrite linspace_length) ps E l p H).
  assert (Y := segment_label_again N end_t (linspace 0 end_t (length ys)) ys label HN He (linspace_nondecreasing 0 end_t _ He) ltac:(now rewrite linspace_length) ps E l p H).
  destruct l as [|l]; cbn [Nat.eqb].
  - destruct X as [X|(_ & X & _)]; [exact X|lia].
  - destruct X as [X|(X & _)]; [exfalso|exact X]. destruct (Y X) as [Z|Z]; [lia|].
    specialize (Z 0%nat ltac:(rewrite linspace_length; lia)). rewrite linspace_first in Z by lia.
    assert (0 < INR (S l) * end_t / INR N); [|lra]. apply Rdiv_lt_0_compat; [|apply lt_0_INR; lia].
    apply Rmult_lt_0_compat; [apply lt_0_INR; lia|exact He].
Qed.

(** ** Samples that start in the second half *)
Definition late : vec := [3; 4].
Lemma late_nondecreasing : nondecreasing late.
Proof. intros [|[|i]] [|[|j]] (A & B); unfold late, vnth in *; cbn [nth length] in *; try lia; lra. Qed.
Lemma late_twice : exists ps, plot_by_segments late late "f" 2 4 = Ok ps /\ map pc_label ps = [Some "f"%string; Some "f"%string] /\
  concat (map pc_t ps) = [3].
Proof.
  assert (I := late_nondecreasing).
  assert (P : plot_by_segments late late "f" 2 4 = Ok (map (piece_of 2 4 late late "f") (seq 0 2))).
  { apply plot_ok; [lia|lra|exact I|reflexivity]. }
  exists (map (piece_of 2 4 late late "f") (seq 0 2)). split; [exact P|].
  assert (B1 : before 2 4 late 1 = 0%nat).
  { destruct (before_spec 2 4 late 1 ltac:(lia) ltac:(lra) I) as (_ & B). destruct (before 2 4 late 1) as [|k] eqn:E; [reflexivity|].
    exfalso. destruct (B 0%nat ltac:(cbn; lia)) as (X & _). specialize (X ltac:(lia)). unfold late, vnth in X. cbn [nth] in X. cbn [INR] in X. lra. }
  assert (B2 : before 2 4 late 2 = 1%nat).
  { destruct (before_spec 2 4 late 2 ltac:(lia) ltac:(lra) I) as (_ & B).
    destruct (B 0%nat ltac:(cbn; lia)) as (_ & X). assert (Y : (0 < before 2 4 late 2)%nat).
    { apply X. unfold late, vnth. cbn [nth INR]. lra. }
    destruct (B 1%nat ltac:(cbn; lia)) as (Z & _).
    destruct (Nat.eq_dec (before 2 4 late 2) 1) as [|D]; [assumption|]. exfalso. specialize (Z ltac:(lia)).
    unfold late, vnth in Z. cbn [nth INR] in Z. lra. }
  cbn [seq map]. unfold piece_of, start_of. cbn [Nat.eqb pc_label pc_t]. rewrite B1, B2. split; reflexivity.
Qed.

(** ** Names *)
Lemma documented_missing : In "LGLm"%string documented_names /\ In "D2"%string documented_names /\ In "LG_inv"%string documented_names /\
  names false FPseudospectral "LGLm" "LGLm" /\ sch_to_lab "LGLm" = Err KeyError /\ sch_to_lab "LG_inv" = Err KeyError /\ sch_to_color "D2" = Err KeyError.
Proof.
  repeat apply conj; try reflexivity; unfold documented_names, names, plain_names; cbn; auto 40.
Qed.
Lemma same_colour : exists c, sch_to_color "hsj" = Ok c /\ sch_to_color "LG" = Ok c /\ sch_to_color "hsn_parab" = sch_to_color "hs_mod".
Proof. exists (Cycle 4). repeat split. Qed.
Lemma add_collides : gen_fig_filename "p" "g" ["hs"%string] "pdf" (Some 10%nat) None (Some "trapz"%string) =
  gen_fig_filename "p" "g" ["hs"%string; "trapz"%string] "pdf" (Some 10%nat) None None.
Proof. reflexivity. Qed.
Lemma dash_collides : gen_fig_filename "p" "g" ["a--b"%string] "pdf" None None None = gen_fig_filename "p" "g" ["a"%string; "b"%string] "pdf" None None None.
Proof. reflexivity. Qed.
Lemma not_in_folder : ~ directly_in (fst (save_fig "out/p" "g" [] "pdf" None None None)) (snd (save_fig "out/p" "g" [] "pdf" None None None)).
Proof.
  intros (title & E & L). cbn in E. repeat (injection E as E). subst title. cbn in L. tauto.
Qed.
Lemma name_example : gen_fig_filename "p" "g" ["trapz"%string; "hs"%string] "pdf" (Some 10%nat) (Some 0%nat) None = "p_figs/p_g_q_1_N10--hs--trapz.pdf"%string.
Proof. reflexivity. Qed.
Lemma lacks_example : Forall (lacks "-"%char) ["trapz"%string; "hs"%string] /\ Forall (lacks "/"%char) ["trapz"%string; "hs"%string] /\
  lacks "/"%char "p" /\ lacks "/"%char "pdf".
Proof. repeat split; repeat constructor; discriminate. Qed.
