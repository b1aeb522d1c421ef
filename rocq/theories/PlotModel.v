(** Model of the labels, colours, pieces of curves and file names of
    chords/util.py:34-384. *)
From Coq Require Import String Ascii QArith.
From Verif Require Import Prelude PwInterpModel AnalysisModel DispatchModel SymModel.
Open Scope string_scope.
Open Scope list_scope.

(** d[k] of a dictionary written as the list of its assignments: the last one
    counts. *)
Definition dict_at {A} (d : list (string * A)) (k : string) : Res A :=
  match find (fun p => String.eqb (fst p) k) (rev d) with
  | Some p => Ok (snd p)
  | None => Err KeyError
  end.

(** ** Labels *)
(** util.py:35-63 *)
Definition label_dict : list (string * string) :=
  [("hs", "HS-1-Topputo"); ("hs_mod", "HS-2-Topputo"); ("hs_parab", "HS-1"); ("hs_mod_parab", "HS-2");
   ("trapz", "TZ-1"); ("trapz_mod", "TZ-2"); ("hsj", "HSJ-Topputo"); ("hsj_parab", "HSJ");
   ("hsj_parab_mod", "HSJ (sep $u_c$)"); ("rk4", "rk4"); ("hsn", "HS-M-Topputo"); ("hsn_parab", "HS-M");
   ("trapz_n", "TZ-M"); ("LG", "LG"); ("LG2", "LG2"); ("LGL", "LGL"); ("LGR", "LGR"); ("LGR_inv", "LGR_inv");
   ("JG", "JG"); ("JGR", "JGR"); ("JGR_inv", "JGR_inv"); ("JGL", "JGL"); ("CG", "Cheb");
   ("CG_inv", "Cheb_inv"); ("CGL", "Cheb-L"); ("CGR", "Cheb-R"); ("CGR_inv", "Cheb-R_inv")].
(** util.py:64-80, 142-162: the prefixes of both functions, with the texts of
    each. *)
Definition prefixed (d : list (string * string)) (bu td ph_text sch : string) : Res string :=
  let '(ph, sch) := if head3 sch =? "ph_" then (true, tail3 sch) else (false, sch) in
  do label <-
    (if head3 sch =? "BU_" then do label <- dict_at d (tail3 sch); Ok (label ++ bu)%string
     else if head3 sch =? "TD_" then do label <- dict_at d (tail3 sch); Ok (label ++ td)%string
     else dict_at d sch);
  Ok (if (ph : bool) then (ph_text ++ label)%string else label).
(** util.py:34-80 [sch_to_lab] *)
Definition sch_to_lab (sch : string) : Res string := prefixed label_dict " D-A" " I-A" "adaptive " sch.

(** util.py:84-112 *)
Definition titles : list string :=
  ["Hermite Simpson"; "2nd order Hermite Simpson"; "Trapezoidal"; "2nd order Trapezoidal";
   "Hermite Simpson (Topputo)"; "2nd order Hermite Simpson (Topputo)"; "Hermite-Simpson-Jacobi (Topputo)";
   "Hermite-Simpson-Jacobi"; "Hermite-Simpson-Jacobi (mod_u)"; "Runge-Kutta 4"; "Mth order Hermite Simpson";
   "Mth  order Hermite Simpson (Topputo)"; "Mth  order Trapezoidal"; "LG"; "LG2"; "LGL"; "LGR"; "LGR_inv";
   "JG"; "JGR"; "JGR_inv"; "JGL"; "Chebyshev"; "Chebyshev_inv"; "Chebyshev-Lobato"; "Chebyshev-Radau";
   "Chebyshev-Radau_inv"].
(** util.py:113-141 *)
Definition long_schemes : list string :=
  ["hs_parab"; "hs_mod_parab"; "trapz"; "trapz_mod"; "hs"; "hs_mod"; "hsj"; "hsj_parab"; "hsj_parab_mod";
   "rk4"; "hsn_parab"; "hsn"; "trapz_n"; "LG"; "LG2"; "LGL"; "LGR"; "LGR_inv"; "JG"; "JGR"; "JGR_inv"; "JGL";
   "CG"; "CG_inv"; "CGL"; "CGR"; "CGR_inv"].
(** util.py:83-162 [sch_to_long_label] *)
Definition sch_to_long_label (sch : string) : Res string :=
  prefixed (combine long_schemes titles) " integrative" " derivative" "ph adaptive " sch.

(** ** Colours *)
(** A colour of the cycle, C0, C1, ..., or colormaps[name](linspace(a, b, n)[i])
    (a colour map at one value a is written with n = 1). *)
Inductive colour := Cycle (k : nat) | Cmap (name : string) (a b : Q) (n i : nat).

(** s.replace(old, new), for old of [S (length old')] characters: [skip]
    characters of an occurrence already replaced are left out. *)
Fixpoint replace_from (old new : string) (skip : nat) (s : string) : string :=
  match s with
  | EmptyString => EmptyString
  | String c r =>
      match skip with
      | S k => replace_from old new k r
      | O => if String.prefix old s then (new ++ replace_from old new (String.length old - 1) r)%string
             else String c (replace_from old new 0 r)
      end
  end.
Definition py_replace (old new s : string) : string := replace_from old new 0 s.

(** util.py:167-176 *)
Definition piece_sch : list string := ["hs"; "trapz_mod"; "trapz"; "hs_mod"; "hsj"; "rk4"; "hsj_mod"].
Definition pseud_sch : list string := ["LG"; "LGL"; "LGR"; "JG"; "JGR"; "JGL"; "CG"; "CGL"; "CGR"; "LG2"].
Definition enumerate {A} (l : list A) : list (nat * A) := combine (seq 0 (length l)) l.
(** util.py:166, 179-203: the assignments to color_dict, in their order *)
Definition color_dict : list (string * colour) :=
  let n_sch := length pseud_sch in
  map (fun p => (snd p, Cycle (fst p))) (enumerate piece_sch) ++
  map (fun p => (snd p, Cycle (fst p + 4))) (enumerate pseud_sch) ++
  map (fun p => (("BU_" ++ snd p)%string, Cmap "cubehelix" (2 # 10) (9 # 10) n_sch (fst p))) (enumerate pseud_sch) ++
  map (fun p => (("TD_" ++ snd p)%string, Cmap "gnuplot2" (85 # 100) (2 # 10) n_sch (fst p))) (enumerate pseud_sch) ++
  [("BU_LG", Cmap "cubehelix" (45 # 100) (45 # 100) 1 0); ("TD_LG", Cmap "gist_stern" (12 # 100) (12 # 100) 1 0);
   ("BU_LGR", Cmap "gnuplot2" (2 # 10) (2 # 10) 1 0); ("TD_LGR", Cmap "terrain" (6 # 10) (6 # 10) 1 0);
   ("BU_LGL", Cmap "cubehelix" (7 # 10) (7 # 10) 1 0); ("TD_LGL", Cmap "cubehelix" (3 # 10) (3 # 10) 1 0)].
(** util.py:165-213 [sch_to_color] *)
Definition sch_to_color (sch : string) : Res colour :=
  let sch := py_replace "_parab" "" sch in
  let sch := py_replace "ph_" "" sch in
  let sch := py_replace "_inv" "" sch in
  let sch := py_replace "trapz_n" "trapz_mod" sch in
  let sch := py_replace "hsn" "hs_mod" sch in
  dict_at color_dict sch.

(** sub in s *)
Definition contains (sub s : string) : bool := match String.index 0 sub s with Some _ => true | None => false end.

Record style := { st_color : colour; st_ls : string; st_label : string }.
(** util.py:216-245 [scheme_kwargs]; the marker is always "o".  An order is a
    natural number. *)
Definition scheme_kwargs (sch : string) (longlabel colors_for_parab : bool) (order : option nat) : Res style :=
  do color <- sch_to_color sch;
  let ls := if colors_for_parab then "-"
            else if contains "hs" sch && negb (contains "parab" sch) then "--" else "-" in
  do label <- (if longlabel then sch_to_long_label sch else sch_to_lab sch);
  match order with
  | None => Ok {| st_color := color; st_ls := ls; st_label := label |}
  | Some o =>
      let ls := if (o =? 1)%nat then "-" else if (o =? 2)%nat then ":" else "--" in
      Ok {| st_color := color; st_ls := ls; st_label := (label ++ " order " ++ str_nat o)%string |}
  end.

(** ** Curves drawn in pieces *)
Section Pieces.
  Context {A : Type}.
  (** One call of matplotlib.pyplot.plot: abscissae, rows and label; it raises
      ValueError if they are not as many. *)
  Record piece := { pc_t : vec; pc_y : list A; pc_label : option string }.
  Definition plot_call (t : vec) (y : list A) (label : option string) : Res piece :=
    if (length t =? length y)%nat then Ok {| pc_t := t; pc_y := y; pc_label := label |} else Err ValueError.

  (** util.py:262-272: the turns of the loop left, from [ll] on. *)
  Fixpoint plot_from (t_arr interv_n : vec) (y_plot : list A) (label : string) (cut_p ll turns : nat) : Res (list piece) :=
    match turns with
    | O => Ok []
    | S turns' =>
        let jj := searchsorted interv_n (INR ll) in
        do p <- plot_call (slice cut_p jj t_arr) (slice cut_p jj y_plot) (if (cut_p =? 0)%nat then Some label else None);
        do ps <- plot_from t_arr interv_n y_plot label jj (S ll) turns';
        Ok (p :: ps)
    end.
  (** util.py:257-272 [plot_by_segments] *)
  Definition plot_by_segments (t_arr : vec) (y_plot : list A) (label : string) (N : nat) (end_t : R) : Res (list piece) :=
    let interv_n := map (fun t => INR N * t / end_t)%R t_arr in
    plot_from t_arr interv_n y_plot label 0 1 N.
End Pieces.
Arguments piece : clear implicits.

(** util.py:280-300: the pieces of one scheme drawn by [graph_by_segments],
    for its times t and the rows of the thing to plot.  A missing label or
    colour raises before the first piece. *)
Definition graph_pieces {A} (scheme : string) (t : vec) (rows : list A) (N : nat) : Res (list (piece A)) :=
  let end_t := vnth t (length t - 1) in
  do _ <- (if (N =? 0)%nat then Ok (Cycle 0) else sch_to_color scheme);
  do label <- (if (N =? 0)%nat then Ok "" else sch_to_lab scheme);
  plot_by_segments (linspace 0 end_t (length rows)) rows label N end_t.

(** ** Names of files *)
(** list.sort of strings *)
Fixpoint insert_s (x : string) (l : list string) : list string :=
  match l with
  | [] => [x]
  | y :: l' => if String.leb x y then x :: y :: l' else y :: insert_s x l'
  end.
Definition sort_s (l : list string) : list string := fold_right insert_s [] l.

(** os.path.join(a, b) of POSIX *)
Definition path_join (a b : string) : string :=
  if String.prefix "/" b then b
  else if (a =? "") || (String.substring (String.length a - 1) 1 a =? "/") then (a ++ b)%string
  else (a ++ "/" ++ b)%string.

(** util.py:327-353 [gen_fig_filename] *)
Definition gen_fig_filename (problem_name graph_name : string) (schemes_printed : list string) (save_format : string)
    (N q_counter : option nat) (add : option string) : string :=
  let folder_name := (problem_name ++ "_figs")%string in
  let schemes := sort_s schemes_printed in
  let title := (problem_name ++ "_" ++ graph_name)%string in
  let title := match q_counter with Some q => (title ++ "_q_" ++ str_nat (q + 1))%string | None => title end in
  let title := match N with None => (title ++ "_vs_N")%string | Some n => (title ++ "_N" ++ str_nat n)%string end in
  let title := fold_left (fun title scheme => (title ++ "--" ++ scheme)%string) schemes title in
  let title := match add with Some a => (title ++ "--" ++ a)%string | None => title end in
  let title := (title ++ "." ++ save_format)%string in
  path_join folder_name title.
(** util.py:356-384 [save_fig]: the folder made, if it is not there, and the
    file written. *)
Definition save_fig (problem_name graph_name : string) (schemes_printed : list string) (save_format : string)
    (N q_counter : option nat) (add : option string) : string * string :=
  ((problem_name ++ "_figs")%string, gen_fig_filename problem_name graph_name schemes_printed save_format N q_counter add).
