(** A Lagrangian system with a constraint and the functions made from it. *)
From Coq Require Import String Ascii.
From Coquelicot Require Import Coquelicot.
From Verif Require Import Prelude PreludeFacts SymModel SymSpec SymProofs LagrModel LagrSpec LagrFacts LagrProofs LagrMoreProofs LagrExamples LagrExamples2 FuncDynSpec CasModel CasSpec CasLagrSpec CasProofs CasRhsProofs CasNameProofs CasDynProofs CasImplProofs CasSetupProofs CasLagrProofs CasExamples.
Open Scope R_scope.
Open Scope list_scope.

(** Different symbols with different names can have any values. *)
Definition apart_b (l : list atom) : bool :=
  forallb (fun a => forallb (fun b => if atom_eq_dec (called a) (called b) then if atom_eq_dec a b then true else false else true) l) l.
Lemma consistent_values l (sigma : atom -> R) : apart_b l = true -> exists val, forall a, In a l -> val (called a) = sigma a.
Proof.
  intros H. exists (fun b => match find (fun a => if atom_eq_dec (called a) b then true else false) l with Some a => sigma a | None => 0 end).
  intros a Ha. destruct (find _ l) as [b|] eqn:E.
  - apply find_some in E. destruct E as [Hb E]. destruct (atom_eq_dec (called b) (called a)) as [Eq|]; [|discriminate].
    unfold apart_b in H. rewrite forallb_forall in H. specialize (H b Hb). rewrite forallb_forall in H. specialize (H a Ha).
    destruct (atom_eq_dec (called b) (called a)); [|congruence]. destruct (atom_eq_dec b a); [congruence|discriminate].
  - apply find_none with (x := a) in E; auto. destruct (atom_eq_dec (called a) (called a)); congruence.
Qed.
Lemma track_regular g : motion g -> regular track g.
Proof.
  intros Hm. destruct track_implicit as (_ & U & NA & SL & SC & _). split; [exact U|]. split; [intros i _; apply NA|]. split.
  - intros k Hk. cbn [lg_coneqs track slide length] in Hk. replace k with 0%nat by lia. intros n j I. cbn in I. intuition (try discriminate); match goal with H : Dyn _ _ = Dyn _ _ |- _ => injection H as <- <-; lia end.
  - split; [exact Hm|]. split; [intros x; apply SL|]. intros x k Hk. cbn [lg_coneqs track slide length] in Hk. replace k with 0%nat by lia. apply SC.
Qed.
Lemma q_clean : forall n, In n ["q_0"%string; "q_1"%string] -> clean_name n /\ standard_name n.
Proof.
  intros n Hn. destruct (numbered_clean "q" 2 (or_introl eq_refl)) as (_ & C1 & S1 & _). split; [exact (proj1 (Forall_forall _ _) C1 n Hn)|exact (proj1 (Forall_forall _ _) S1 n Hn)].
Qed.
Lemma track_setup : exists impl_x st rx rq, implicit_dynamics_x track = Ok impl_x /\
  implicit_setup dyns plain (coords 0 (lg_qs track)) impl_x (implicit_dynamics_q track) U_none = Ok st /\
  arguments_of dyns plain impl_x (Q_list (coords 0 (x_names 4))) U_none true false = Ok rx /\
  arguments_of dyns plain (implicit_dynamics_q track) (Q_list (coords 0 (lg_qs track))) U_none true true = Ok rq /\
  (r_u rq, r_lambdas rq, r_params rq) = ([Static "u_0"; Static "u_1"], ["lam1"], [])%string /\
  forall sigma : atom -> R, exists val : atom -> R, forall a, In a (coords 0 (lg_qs track) ++ coords 1 (lg_qs track) ++ coords 2 (lg_qs track) ++ symbols_in (implicit_dynamics_q track)) -> val (called a) = sigma a.
Proof.
  destruct track_implicit as (ND & _ & _ & _ & _ & NX & NL & lx & EX). exists lx.
  assert (EX' := EX). vm_compute in EX'. injection EX' as EX'.
  assert (Nq : implicit_dynamics_q track <> []) by discriminate.
  assert (Cq : can_be_called (implicit_dynamics_q track)).
  { assert (CB : forallb (fun a => match a with Dyn n (S _) => negb ((n =? "")%string || (n =? "q")%string) | _ => true end) (symbols_in (implicit_dynamics_q track)) = true) by (vm_compute; reflexivity).
    intros n k I. rewrite forallb_forall in CB. specialize (CB _ I). cbn in CB. apply negb_true_iff, orb_false_iff in CB. destruct CB as [A B]. split; intros ->; discriminate. }
  assert (Nx : lx <> []) by (rewrite <- EX'; discriminate).
  assert (Cx : can_be_called lx).
  { assert (CB : forallb (fun a => match a with Dyn n (S _) => negb ((n =? "")%string || (n =? "q")%string) | _ => true end) (symbols_in lx) = true) by (rewrite <- EX'; vm_compute; reflexivity).
    intros n k I. rewrite forallb_forall in CB. specialize (CB _ I). cbn in CB. apply negb_true_iff, orb_false_iff in CB. destruct CB as [A B]. split; intros ->; discriminate. }
  destruct (implicit_setup_clean _ _ orders_ok (lg_qs track) lx (implicit_dynamics_q track) U_none Nq Nx Cq Cx ND) as [st Est].
  - apply Forall_forall. intros n Hn. apply q_clean. exact Hn.
  - intros i [H|[H|[]]]; discriminate H.
  - apply clear_without. intros i _. apply NX.
  - destruct (setup_parts _ _ _ _ _ _ _ ND (clear_without _ (fun i _ => NX i)) Est) as (r & f & g & _ & Hf & Hg & _).
    destruct (impl_arguments_x _ _ orders_ok _ _ _ _ Hf) as [rx Hx]. destruct (impl_arguments_q _ _ orders_ok _ _ _ _ Hg) as [rq Hq].
    exists st, rx, rq. split; [exact EX|]. split; [exact Est|]. split; [exact Hx|]. split; [exact Hq|]. split.
    + assert (Hq' : match arguments_of dyns plain (implicit_dynamics_q track) (Q_list (coords 0 (lg_qs track))) U_none true true with Ok r => (r_u r, r_lambdas r, r_params r) | Err _ => ([], [], []) end = ([Static "u_0"; Static "u_1"], ["lam1"], [])%string) by (vm_compute; reflexivity).
      rewrite Hq in Hq'. exact Hq'.
    + intros sigma. apply consistent_values. vm_compute. reflexivity.
Qed.
