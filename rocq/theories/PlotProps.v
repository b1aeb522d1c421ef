(** Properties C64 and C78: labels, colours, curves in pieces, names of
    figures.  Only statements. *)
From Coq Require Import Reals List String Ascii Permutation.
From Verif Require Import Prelude AnalysisModel DispatchModel DispatchSpec SymModel PlotModel PlotSpec PlotProofs PlotNameProofs PlotExamples.
Import ListNotations.
Open Scope R_scope.
Open Scope list_scope.

(** ** C64: labels, colours and pieces *)

(** Of the names the factory accepts, exactly those of the seven schemes euler, LG_inv, JG_inv, JG2, CG2, LGLm and D2 have no label, and five of them no colour: they raise KeyError, three of them although documented. *)
Theorem C64_labels_refuted :
  (forall ph f base s, names ph f base s ->
    (is_ok (sch_to_lab s) <-> ~ In base unlabelled) /\ (is_ok (sch_to_long_label s) <-> ~ In base unlabelled) /\
    (is_ok (sch_to_color s) <-> ~ In base uncoloured)) /\
  (forall s e, sch_to_lab s = Err e \/ sch_to_long_label s = Err e \/ sch_to_color s = Err e -> e = KeyError) /\
  In "LGLm"%string documented_names /\ In "D2"%string documented_names /\ In "LG_inv"%string documented_names /\
  names false FPseudospectral "LGLm" "LGLm" /\ sch_to_lab "LGLm" = Err KeyError /\ sch_to_lab "LG_inv" = Err KeyError /\
  sch_to_color "D2" = Err KeyError.
Proof. exact (conj labels_for (conj label_errors documented_missing)). Qed.
Print Assumptions C64_labels_refuted.

(** A label stands for one scheme name. *)
Theorem C64_labels_distinct :
  forall s s' l, sch_to_lab s = Ok l -> sch_to_lab s' = Ok l -> s = s' .
Proof. exact (lab_inj). Qed.
Print Assumptions C64_labels_distinct.

Theorem C64_long_labels_distinct :
  forall s s' l, sch_to_long_label s = Ok l -> sch_to_long_label s' = Ok l -> s = s' .
Proof. exact (long_inj). Qed.
Print Assumptions C64_long_labels_distinct.

Theorem C64_styles :
  forall ph f base s longlabel parab order, names ph f base s ->
  is_ok (scheme_kwargs s longlabel parab order) <-> ~ In base unlabelled.
Proof. exact (style_ok). Qed.
Print Assumptions C64_styles.

Theorem C64_styles_distinct :
  forall s s' longlabel parab parab' order st st',
  scheme_kwargs s longlabel parab order = Ok st -> scheme_kwargs s' longlabel parab' order = Ok st' -> st_label st = st_label st' -> s = s' .
Proof. exact (style_inj). Qed.
Print Assumptions C64_styles_distinct.

(** Colours do not tell schemes apart. *)
Theorem C64_colours_refuted :
  exists c, sch_to_color "hsj" = Ok c /\ sch_to_color "LG" = Ok c /\ sch_to_color "hsn_parab" = sch_to_color "hs_mod".
Proof. exact (same_colour). Qed.
Print Assumptions C64_colours_refuted.

(** The l-th piece has the samples of the l-th of the N equal parts of the time, in order. *)
Theorem C64_segments :
  forall (A : Type) N end_t ts (ys : list A) label, (0 < N)%nat -> 0 < end_t -> nondecreasing ts -> length ys = length ts ->
  exists ps, plot_by_segments ts ys label N end_t = Ok ps /\ length ps = N /\
    forall l p, nth_error ps l = Some p -> exists lo hi, (lo <= hi <= length ts)%nat /\
      pc_t p = slice lo hi ts /\ pc_y p = slice lo hi ys /\
      (forall i, (i < length ts)%nat -> (lo <= i < hi)%nat <-> in_part N end_t l (vnth ts i)).
Proof. exact (@segments). Qed.
Print Assumptions C64_segments.

(** Together the pieces have every sample before the end exactly once. *)
Theorem C64_drawn :
  forall (A : Type) N end_t ts (ys : list A) label, (0 < N)%nat -> 0 < end_t -> nondecreasing ts -> length ys = length ts ->
  exists ps m, plot_by_segments ts ys label N end_t = Ok ps /\ (m <= length ts)%nat /\
    concat (map pc_t ps) = firstn m ts /\ concat (map pc_y ps) = firstn m ys /\
    forall i, (i < length ts)%nat -> (i < m)%nat <-> vnth ts i < end_t.
Proof. exact (@drawn). Qed.
Print Assumptions C64_drawn.

(** The sample at the end is in no piece: of equally spaced samples from 0 to the end the last one is never drawn. *)
Theorem C64_last_refuted :
  forall (A : Type) (ys : list A) label N end_t, (0 < N)%nat -> 0 < end_t -> (2 <= length ys)%nat ->
  exists ps, plot_by_segments (linspace 0 end_t (length ys)) ys label N end_t = Ok ps /\
    concat (map pc_y ps) = firstn (length ys - 1) ys.
Proof. exact (@linspace_drawn). Qed.
Print Assumptions C64_last_refuted.

(** Also in graph_by_segments. *)
Theorem C64_graph_last_refuted :
  forall (A : Type) scheme l t (rows : list A) N, sch_to_color scheme <> Err KeyError -> sch_to_lab scheme = Ok l -> (0 < N)%nat ->
  0 < vnth t (length t - 1) -> (2 <= length rows)%nat ->
  exists ps, graph_pieces scheme t rows N = Ok ps /\ concat (map pc_y ps) = firstn (length rows - 1) rows.
Proof. exact (@graph_ok). Qed.
Print Assumptions C64_graph_last_refuted.

(** Only the first piece has the label if the samples start at 0. *)
Theorem C64_legend :
  forall (A : Type) (ys : list A) label N end_t ps, (0 < N)%nat -> 0 < end_t -> (2 <= length ys)%nat ->
  plot_by_segments (linspace 0 end_t (length ys)) ys label N end_t = Ok ps ->
  forall l p, nth_error ps l = Some p -> pc_label p = (if (l =? 0)%nat then Some label else None).
Proof. exact (@label_once). Qed.
Print Assumptions C64_legend.

(** It is repeated if there is no sample in the first part. *)
Theorem C64_legend_refuted :
  nondecreasing late /\ exists ps, plot_by_segments late late "f" 2 4 = Ok ps /\
  map pc_label ps = [Some "f"%string; Some "f"%string] /\ concat (map pc_t ps) = [3].
Proof. exact (conj late_nondecreasing late_twice). Qed.
Print Assumptions C64_legend_refuted.

Example C64_example :
  nondecreasing late /\ (0 < 2)%nat /\ 0 < 4 /\ sch_to_lab "ph_BU_LG" = Ok "adaptive LG D-A"%string /\
  sch_to_long_label "TD_CGR" = Ok "Chebyshev-Radau derivative"%string /\ sch_to_color "ph_hs_parab" = Ok (Cycle 0).
Proof. exact (conj late_nondecreasing (conj (Nat.lt_0_succ 1) (conj (IZR_lt 0 4 eq_refl) (conj eq_refl (conj eq_refl eq_refl))))). Qed.

(** ** C78: names of the files of figures *)

(** The name does not depend on the order of the schemes. *)
Theorem C78_order :
  forall problem graph l l' fmt N q add, Permutation l l' ->
  gen_fig_filename problem graph l fmt N q add = gen_fig_filename problem graph l' fmt N q add.
Proof. exact (file_order). Qed.
Print Assumptions C78_order.

(** Figures of other schemes, sizes or coordinates get other names. *)
Theorem C78_distinct :
  forall problem graph fmt l l' N q N' q', Forall (lacks "-"%char) l -> Forall (lacks "-"%char) l' ->
  gen_fig_filename problem graph l fmt N q None = gen_fig_filename problem graph l' fmt N' q' None ->
  N = N' /\ q = q' /\ Permutation l l' .
Proof. exact (file_distinct). Qed.
Print Assumptions C78_distinct.

(** With the additional text that is not so: the text may be taken for a scheme. *)
Theorem C78_add_refuted :
  gen_fig_filename "p" "g" ["hs"%string] "pdf" (Some 10%nat) None (Some "trapz"%string) =
  gen_fig_filename "p" "g" ["hs"%string; "trapz"%string] "pdf" (Some 10%nat) None None.
Proof. exact (add_collides). Qed.
Print Assumptions C78_add_refuted.

Theorem C78_dash_refuted :
  gen_fig_filename "p" "g" ["a--b"%string] "pdf" None None None = gen_fig_filename "p" "g" ["a"%string; "b"%string] "pdf" None None None.
Proof. exact (dash_collides). Qed.
Print Assumptions C78_dash_refuted.

(** The file is in the folder save_fig makes, if no name has a slash in it. *)
Theorem C78_folder :
  forall problem graph l fmt N q add,
  lacks "/"%char problem -> lacks "/"%char graph -> Forall (lacks "/"%char) l -> lacks "/"%char fmt ->
  match add with Some a => lacks "/"%char a | None => True end ->
  directly_in (fst (save_fig problem graph l fmt N q add)) (snd (save_fig problem graph l fmt N q add)).
Proof. exact (file_folder). Qed.
Print Assumptions C78_folder.

(** It is not for a problem name with a directory: the file would be in out/p_figs/out, which save_fig does not make. *)
Theorem C78_folder_refuted :
  ~ directly_in (fst (save_fig "out/p" "g" [] "pdf" None None None)) (snd (save_fig "out/p" "g" [] "pdf" None None None)).
Proof. exact (not_in_folder). Qed.
Print Assumptions C78_folder_refuted.

Example C78_example :
  gen_fig_filename "p" "g" ["trapz"%string; "hs"%string] "pdf" (Some 10%nat) (Some 0%nat) None = "p_figs/p_g_q_1_N10--hs--trapz.pdf"%string /\
  Forall (lacks "-"%char) ["trapz"%string; "hs"%string] /\ Forall (lacks "/"%char) ["trapz"%string; "hs"%string] /\
  lacks "/"%char "p" /\ lacks "/"%char "pdf".
Proof. exact (conj name_example lacks_example). Qed.
