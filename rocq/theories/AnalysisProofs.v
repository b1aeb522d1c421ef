(** Facts about dictionaries, sample times and rows. *)
From Coq Require Import String Ascii.
From Verif Require Import Prelude PreludeFacts Poly PolyInterp Mat MatFacts PwModel PwInterpModel PsModel PsSpec BuTdModel BuTdSpec
  PhModel PhSpec DispatchModel DispatchProofs AnalysisModel AnalysisSpec.
Open Scope R_scope.
Open Scope list_scope.

(** ** Keys *)
Lemma key_eqb_eq a b : key_eqb a b = true <-> a = b.
Proof.
  destruct a, b; cbn [key_eqb]; try (split; congruence);
    rewrite ?andb_true_iff, ?Nat.eqb_eq; split; try (intros [-> ->]; reflexivity); try (intros ->; reflexivity); intros H; injection H; auto.
Qed.
Lemma key_eqb_refl a : key_eqb a a = true.
Proof. now apply key_eqb_eq. Qed.
Lemma key_eqb_neq a b : a <> b -> key_eqb a b = false.
Proof. intros H. destruct (key_eqb a b) eqn:E; [|reflexivity]. apply key_eqb_eq in E. contradiction. Qed.

Lemma get_put_same k v d : get k (put k v d) = Ok v.
Proof. unfold put. cbn [get]. now rewrite key_eqb_refl. Qed.
Lemma get_put_other k k' v d : k <> k' -> get k (put k' v d) = get k d.
Proof. intros H. unfold put. cbn [get]. now rewrite key_eqb_neq. Qed.

(** The names of different keys are different. *)
Fixpoint base_of (s : string) : string :=
  match s with
  | EmptyString => EmptyString
  | String c s' => if Ascii.eqb c "_" then EmptyString else String c (base_of s')
  end.
Fixpoint no_bar (s : string) : bool :=
  match s with EmptyString => true | String c s' => negb (Ascii.eqb c "_") && no_bar s' end.
Lemma base_app s t : no_bar s = true -> base_of (String.append s (String "_" t)) = s.
Proof.
  induction s as [|c s IH]; [reflexivity|]. cbn [no_bar append base_of]. rewrite andb_true_iff, negb_true_iff.
  intros [-> H]. now rewrite IH.
Qed.
Lemma base_self s : no_bar s = true -> base_of s = s.
Proof.
  induction s as [|c s IH]; [reflexivity|]. cbn [no_bar base_of]. rewrite andb_true_iff, negb_true_iff. intros [-> H]. now rewrite IH.
Qed.
Lemma append_assoc' a b c : String.append (String.append a b) c = String.append a (String.append b c).
Proof. induction a as [|x a IH]; [reflexivity|]. cbn [append]. now rewrite IH. Qed.
Lemma with_d_app s i : with_d s i = String.append s (with_d "" i).
Proof.
  revert s. induction i as [|i IH]; intros s.
  - cbn. induction s as [|c s IHs]; [reflexivity|]. cbn. now rewrite <- IHs.
  - cbn [with_d append]. rewrite IH, append_assoc'. f_equal. symmetry. apply (IH "_d"%string).
Qed.
Lemma with_d_base s i : no_bar s = true -> base_of (with_d s i) = s.
Proof.
  intros H. destruct i as [|i]; [now apply base_self|]. cbn [with_d]. rewrite with_d_app, append_assoc'. cbn [append].
  now apply base_app.
Qed.
Lemma app_length_s a b : String.length (String.append a b) = (String.length a + String.length b)%nat.
Proof. induction a as [|x a IH]; [reflexivity|]. cbn. now rewrite IH. Qed.
Lemma with_d_length s i : String.length (with_d s i) = (String.length s + 2 * i)%nat.
Proof.
  revert s. induction i as [|i IH]; intros s; cbn [with_d]; [lia|]. rewrite IH, app_length_s. cbn. lia.
Qed.
Lemma with_d_inj s s' i i' : no_bar s = true -> no_bar s' = true -> with_d s i = with_d s' i' -> s = s' /\ i = i'.
Proof.
  intros H H' E. assert (A : s = s') by (rewrite <- (with_d_base s i H), <- (with_d_base s' i' H'); now f_equal).
  split; [exact A|]. subst s'. apply (f_equal String.length) in E. rewrite !with_d_length in E. lia.
Qed.
Lemma no_bar_app a b : no_bar (String.append a b) = no_bar a && no_bar b.
Proof. induction a as [|c a IH]; [reflexivity|]. cbn. rewrite IH. now rewrite andb_assoc. Qed.
Lemma no_bar_uint u : no_bar (DecimalString.NilEmpty.string_of_uint u) = true.
Proof. induction u; cbn; auto. Qed.
Lemma base_name_bar j : no_bar (base_name j) = true.
Proof.
  unfold base_name. do 7 (destruct j as [|j]; [reflexivity|]). cbn [nth]. destruct j; rewrite !no_bar_app; unfold py_str; rewrite no_bar_uint; reflexivity.
Qed.
Lemma append_inj_r a b c : String.append a c = String.append b c -> a = b.
Proof.
  intros H. assert (L : String.length a = String.length b).
  { apply (f_equal String.length) in H. rewrite !app_length_s in H. lia. }
  revert b H L. induction a as [|x a IH]; intros [|y b] H L; cbn in *; try reflexivity; try discriminate.
  injection H as -> H. f_equal. apply IH; auto.
Qed.
Lemma base_name_big j : (7 <= j)%nat -> base_name j = String.append "d" (String.append (py_str j) "q").
Proof. intros H. unfold base_name. apply nth_overflow. cbn [length]. lia. Qed.
Lemma py_str_inj a b : py_str a = py_str b -> a = b.
Proof.
  unfold py_str. intros H. apply (f_equal DecimalString.NilEmpty.uint_of_string) in H.
  rewrite !DecimalString.NilEmpty.usu in H. injection H as H. now apply DecimalNat.Unsigned.to_uint_inj.
Qed.
Lemma base_name_inj j j' : base_name j = base_name j' -> j = j'.
Proof.
  assert (S : forall j j', (j < 7)%nat -> (7 <= j')%nat -> base_name j <> base_name j').
  { clear. intros j j' A B. rewrite (base_name_big j' B). destruct j as [|[|[|[|[|[|[|j]]]]]]]; cbn; try discriminate; lia. }
  intros E. destruct (Nat.lt_ge_cases j 7) as [A|A], (Nat.lt_ge_cases j' 7) as [B|B].
  - do 7 (destruct j as [|j]; [do 7 (destruct j' as [|j']; [solve [reflexivity | discriminate E]|]); lia|]). lia.
  - now destruct (S j j').
  - symmetry in E. now destruct (S j' j).
  - rewrite !base_name_big in E by assumption. cbn [append] in E. injection E as E. now apply py_str_inj, append_inj_r with "q"%string.
Qed.
Lemma base_name_not j s : In s ["x"; "u"; "t"; "f"]%string -> base_name j <> s.
Proof.
  intros I E. destruct (Nat.lt_ge_cases j 7) as [A|A].
  - do 7 (destruct j as [|j]; [cbn in I; destruct I as [<-|[<-|[<-|[<-|[]]]]]; discriminate E|]). lia.
  - rewrite base_name_big in E by exact A. cbn [append] in E. destruct I as [<-|[<-|[<-|[<-|[]]]]]; discriminate E.
Qed.
Lemma key_name_inj a b : key_name a = key_name b -> a = b.
Proof.
  set (base := fun k => match k with KX _ => "x" | KQ j _ => base_name j | KU => "u" | KT => "t" | KF => "f" end%string).
  set (num := fun k => match k with KX i => i | KQ _ i => i | _ => 0%nat end).
  assert (N : forall k, key_name k = with_d (base k) (num k)) by (intros []; reflexivity).
  assert (NB : forall k, no_bar (base k) = true) by (intros []; unfold base; try reflexivity; apply base_name_bar).
  rewrite !N. intros E. apply with_d_inj in E; auto. destruct E as [E1 E2].
  assert (C : forall j s, In s ["x"; "u"; "t"; "f"]%string -> base_name j = s -> a = b)
    by (intros j s A B; now destruct (base_name_not j s A)).
  destruct a as [i|j i| | |], b as [i'|j' i'| | |]; cbv beta iota delta [base num] in E1, E2;
    first [ reflexivity | congruence | (apply base_name_inj in E1; congruence)
          | (eapply C; [|exact E1]; cbn; tauto) | (eapply C; [|symmetry; exact E1]; cbn; tauto) | discriminate E1 ].
Qed.

(** ** The arrays of q and its derivatives *)
Lemma fold_put ii (f : nat -> vec) n d k :
  get k (fold_left (fun d jj => put (KQ jj ii) (f jj) d) (seq 0 n) d) =
  match k with
  | KQ j i => if ((i =? ii) && (j <? n))%nat then Ok (f j) else get k d
  | _ => get k d
  end.
Proof.
  induction n as [|n IH].
  - cbn [seq fold_left]. destruct k; try reflexivity. now rewrite andb_false_r.
  - rewrite seq_S, fold_left_app. cbn [fold_left Nat.add].
    destruct (key_eqb k (KQ n ii)) eqn:E.
    + apply key_eqb_eq in E. subst k. rewrite get_put_same, Nat.eqb_refl. cbn [andb].
      replace (n <? S n)%nat with true by (symmetry; apply Nat.ltb_lt; lia). reflexivity.
    + rewrite get_put_other by (intros ->; now rewrite key_eqb_refl in E). rewrite IH.
      destruct k as [| j i | | |]; try reflexivity. cbn [key_eqb] in E.
      clear IH. destruct (Nat.eqb_spec i ii) as [I|]; [|reflexivity]. cbn [andb].
      destruct (Nat.eqb_spec j n) as [J|]; [discriminate E|].
      destruct (Nat.ltb_spec j n), (Nat.ltb_spec j (S n)); try reflexivity; lia.
Qed.

Definition div (M : nat) (X : nat -> vec) (j i : nat) : vec := nth j (get_x_divisions (X i) M) [].

Lemma fold_divs M d (X : nat -> vec) n :
  (forall i, (i < n)%nat -> get (KX i) d = Ok (X i)) ->
  exists d', fold_left (fun acc ii =>
      do d <- acc;
      do _arr <- get (KX ii) d;
      let divs := get_x_divisions _arr M in
      Ok (fold_left (fun d jj => put (KQ jj ii) (nth jj divs []) d)
            (seq 0 (M - Nat.max 1 ii + 1)) d)) (seq 0 n) (Ok d) = Ok d' /\
   forall k, get k d' = match k with
     | KQ j i => if ((i <? n) && (j <? M - Nat.max 1 i + 1))%nat then Ok (div M X j i) else get k d
     | _ => get k d end.
Proof.
  induction n as [|n IH]; intros G.
  - exists d. split; [reflexivity|]. intros [| j i | | |]; reflexivity.
  - destruct IH as (d' & E & G'); [intros i Hi; apply G; lia|].
    rewrite seq_S, fold_left_app, E. cbn [fold_left rbind Nat.add]. rewrite (G' (KX n)), G by lia. cbn [rbind].
    eexists. split; [reflexivity|]. intros k. rewrite fold_put, G'.
    destruct k as [| j i | | |]; try reflexivity.
    destruct (Nat.eqb_spec i n) as [->|N].
    + replace (n <? S n)%nat with true by (symmetry; apply Nat.ltb_lt; lia). rewrite Nat.ltb_irrefl. cbn [andb].
      destruct (j <? _)%nat; reflexivity.
    + cbn [andb]. destruct (Nat.ltb_spec i n), (Nat.ltb_spec i (S n)); try reflexivity; lia.
Qed.

Lemma distribute_ok M d (X : nat -> vec) :
  (1 <= M)%nat -> (forall i, (i <= M)%nat -> get (KX i) d = Ok (X i)) ->
  exists d', distribute M d = Ok d' /\
   (forall i j, (j < M)%nat -> (j + i <= M)%nat -> get (KQ j i) d' = Ok (div M X j i)) /\
   get (KQ M 0) d' = Ok (div M X (M - 1) 1) /\
   (forall k, (forall j i, k <> KQ j i) -> get k d' = get k d).
Proof.
  intros HM G. destruct (fold_divs M d X (M + 1)) as (d' & E & G'); [intros i Hi; apply G; lia|].
  assert (B : forall i j, (j < M)%nat -> (j + i <= M)%nat -> get (KQ j i) d' = Ok (div M X j i)).
  { intros i j A B. rewrite G'. destruct (Nat.ltb_spec i (M + 1)); [|lia].
    destruct (Nat.ltb_spec j (M - Nat.max 1 i + 1)); [reflexivity|lia]. }
  unfold distribute.
  match goal with |- context [fold_left ?f (seq 0 (M + 1)) (Ok d)] =>
    change (fold_left f (seq 0 (M + 1)) (Ok d)) with
      (fold_left (fun acc ii => do d <- acc; do _arr <- get (KX ii) d; let divs := get_x_divisions _arr M in
        Ok (fold_left (fun d jj => put (KQ jj ii) (nth jj divs []) d) (seq 0 (M - Nat.max 1 ii + 1)) d))
        (seq 0 (M + 1)) (Ok d)) end.
  rewrite E. cbn [rbind]. rewrite B by lia. cbn [rbind].
  eexists. split; [reflexivity|]. split; [|split].
  - intros i j A A'. rewrite get_put_other; [now apply B|]. intros C. injection C as -> ->. lia.
  - apply get_put_same.
  - intros k K. rewrite get_put_other by auto. rewrite G'. destruct k as [| j i | | |]; try reflexivity. now destruct (K j i).
Qed.

Lemma get_combine (xs : list vec) : forall a i, (a <= i)%nat ->
  get (KX i) (combine (map KX (seq a (length xs))) xs) =
    if (i <? a + length xs)%nat then Ok (nth (i - a) xs []) else Err KeyError.
Proof.
  induction xs as [|x xs IH]; intros a i Hi.
  - cbn [length]. destruct (Nat.ltb_spec i (a + 0)); [lia|reflexivity].
  - cbn [length seq map combine get key_eqb]. destruct (Nat.eqb_spec i a) as [->|N].
    + rewrite Nat.sub_diag. destruct (Nat.ltb_spec a (a + S (length xs))); [reflexivity|lia].
    + rewrite IH by lia. replace (S a + length xs)%nat with (a + S (length xs))%nat by lia.
      destruct (_ <? _)%nat; [|reflexivity]. replace (i - a)%nat with (S (i - S a)) by lia. reflexivity.
Qed.

Lemma make_row_ok M xs u t :
  (1 <= M)%nat -> length xs = (M + 1)%nat ->
  exists d, make_row M xs u t = Ok d /\
    shows M (fun j i => div M (fun i => nth i xs []) j i) u t d /\
    forall i, (i <= M)%nat -> get (KX i) d = Ok (nth i xs []).
Proof.
  intros HM L. unfold make_row.
  assert (G : forall i, (i <= M)%nat ->
    get (KX i) ([(KU, u); (KT, [t])] ++ combine (map KX (seq 0 (length xs))) xs) = Ok (nth i xs [])).
  { intros i Hi. cbn [app get key_eqb]. rewrite get_combine by lia. rewrite Nat.sub_0_r.
    destruct (Nat.ltb_spec i (0 + length xs)); [reflexivity|lia]. }
  destruct (distribute_ok M _ (fun i => nth i xs []) HM G) as (d & E & A & B & C).
  exists d. split; [exact E|]. split.
  - repeat apply conj; try assumption; rewrite C by discriminate; reflexivity.
  - intros i Hi. rewrite C by discriminate. now apply G.
Qed.
Lemma shows_ext M B B' u t d :
  (1 <= M)%nat -> (forall j i, (j < M)%nat -> (j + i <= M)%nat -> B j i = B' j i) ->
  shows M B u t d -> shows M B' u t d.
Proof.
  intros HM E (A & C & D & F). repeat apply conj; try assumption.
  - intros i j Hj Hi. rewrite D by assumption. now rewrite E.
  - rewrite F. now rewrite E by lia.
Qed.
