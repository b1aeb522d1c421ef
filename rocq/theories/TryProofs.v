(** Proofs for C99. *)
From Verif Require Import Prelude PwInterpModel TryModel TrySpec.
Open Scope R_scope.
Open Scope list_scope.

Lemma squeeze_long : forall l, length l <> 1%nat -> squeeze (Ar l) = Ar (map squeeze l).
Proof. intros [|a [|b l]] H; try reflexivity. now destruct H. Qed.
Lemma squeeze_row : forall a, length a <> 1%nat -> squeeze (row a) = row a.
Proof.
  intros a H. unfold row. rewrite squeeze_long by now rewrite map_length.
  now rewrite map_map.
Qed.
Lemma squeeze_layout : forall a o, length a <> 1%nat -> In o (layouts a) -> squeeze o = row a.
Proof.
  intros a o H [<-|[<-|[<-|[]]]].
  - now apply squeeze_row.
  - cbn [squeeze]. now apply squeeze_row.
  - rewrite squeeze_long by now rewrite map_length. rewrite map_map. reflexivity.
Qed.
Lemma squeeze_layout_one : forall a o, length a = 1%nat -> In o (layouts a) -> squeeze o = Sc (vnth a 0).
Proof.
  intros [|x [|y a]] o H; try discriminate. intros [<-|[<-|[<-|[]]]]; reflexivity.
Qed.
Lemma shape_row : forall a, shape (row a) = [length a].
Proof. intros [|x a]; [reflexivity|]. unfold row. cbn. now rewrite map_length. Qed.

Lemma mapm_all_ok : forall A B (f : A -> Res B) (g : A -> B) l,
  (forall a, In a l -> f a = Ok (g a)) -> mapm f l = Ok (map g l).
Proof.
  induction l as [|a l IH]; intros H; [reflexivity|]. cbn [mapm map].
  rewrite H by now left. cbn. rewrite IH by (intros; apply H; now right). reflexivity.
Qed.

Lemma item_samples : forall m i, (i < length m)%nat -> item (samples m) i = Ok (row (nth i m [])).
Proof.
  intros m i H. unfold item, samples.
  rewrite (nth_error_nth' _ (row [])) by now rewrite map_length.
  now rewrite map_nth.
Qed.

Section Rows.
Context {P : Type}.
Variables (f : arr -> arr -> arr -> P -> Res arr) (params : P) (g : vec -> vec -> vec -> vec).

Lemma loop_rows : forall n q v u, length v = length q -> length u = length q ->
  one_sample f params g n q v u ->
  forall e, f (samples q) (samples v) (samples u) params = Err e ->
  try_array_f f (samples q) (samples v) (samples u) params =
  array (map (fun i => let a := g (nth i q []) (nth i v []) (nth i u []) in
                       if (n =? 1)%nat then Sc (vnth a 0) else row a) (seq 0 (length q))).
Proof using.
  intros n q v u Hv Hu Hf e He. unfold try_array_f. rewrite He.
  unfold shape0, samples at 1. cbn [rbind]. rewrite map_length.
  rewrite (mapm_all_ok _ _ _ (fun i => let a := g (nth i q []) (nth i v []) (nth i u []) in
                       if (n =? 1)%nat then Sc (vnth a 0) else row a)); [reflexivity|].
  intros i Hi. apply in_seq in Hi. rewrite !item_samples by (try rewrite Hv; try rewrite Hu; lia).
  destruct (Hf i) as [Hn [o [Ho Hl]]]; [lia|]. cbn [rbind]. rewrite Ho. cbn [rbind]. f_equal.
  cbv zeta. destruct (Nat.eqb_spec n 1) as [E|E].
  - apply squeeze_layout_one; [congruence|assumption].
  - apply squeeze_layout; [congruence|assumption].
Qed.

Lemma array_same : forall l sh, (forall a, In a l -> shape a = sh) -> array l = Ok (Ar l).
Proof using.
  clear f params g P. intros [|b l] sh H; [reflexivity|]. unfold array.
  replace (forallb _ l) with true; [reflexivity|]. symmetry. apply forallb_forall. intros c Hc.
  destruct (list_eq_dec Nat.eq_dec (shape c) (shape b)) as [|E]; [reflexivity|].
  exfalso. apply E. rewrite (H b), (H c); [reflexivity|now right|now left].
Qed.

Lemma try_rows : forall n q v u, length v = length q -> length u = length q -> n <> 1%nat ->
  one_sample f params g n q v u ->
  forall e, f (samples q) (samples v) (samples u) params = Err e ->
  try_array_f f (samples q) (samples v) (samples u) params = Ok (samples (accelerations g q v u)).
Proof using.
  intros n q v u Hv Hu Hn Hf e He. rewrite (loop_rows n q v u Hv Hu Hf e He).
  assert (E : (n =? 1)%nat = false) by now apply Nat.eqb_neq. rewrite E. cbv zeta.
  rewrite (array_same _ [n]).
  - unfold samples, accelerations. now rewrite map_map.
  - intros a Ha. apply in_map_iff in Ha. destruct Ha as [i [<- Hi]]. apply in_seq in Hi.
    rewrite shape_row. f_equal. apply Hf. lia.
Qed.

Lemma try_exactly : forall n q v u, length v = length q -> length u = length q -> n <> 1%nat ->
  one_sample f params g n q v u ->
  (try_array_f f (samples q) (samples v) (samples u) params = Ok (samples (accelerations g q v u)) <->
   forall o, f (samples q) (samples v) (samples u) params = Ok o -> o = samples (accelerations g q v u)).
Proof using.
  intros n q v u Hv Hu Hn Hf. split; intros H.
  - intros o Ho. unfold try_array_f in H. rewrite Ho in H. congruence.
  - destruct (f (samples q) (samples v) (samples u) params) as [o|e] eqn:E.
    + unfold try_array_f. rewrite E. f_equal. now apply H.
    + now apply (try_rows n) with e.
Qed.

Lemma try_one : forall q v u, length v = length q -> length u = length q ->
  one_sample f params g 1 q v u ->
  forall e, f (samples q) (samples v) (samples u) params = Err e ->
  try_array_f f (samples q) (samples v) (samples u) params =
  Ok (row (map (fun a => vnth a 0) (accelerations g q v u))).
Proof using.
  intros q v u Hv Hu Hf e He. rewrite (loop_rows 1 q v u Hv Hu Hf e He). cbv zeta. cbn [Nat.eqb].
  rewrite (array_same _ []).
  - unfold row, accelerations. now rewrite !map_map.
  - intros a Ha. apply in_map_iff in Ha. now destruct Ha as [i [<- _]].
Qed.
Lemma array_ragged : forall l, ~ (exists s, Forall (fun c => shape c = s) l) -> array l = Err ValueError.
Proof using.
  intros [|b l] H; [destruct H; exists []; constructor|]. cbn [array].
  destruct (forallb _ l) eqn:E; [|reflexivity]. exfalso. apply H. exists (shape b). constructor; [reflexivity|].
  apply Forall_forall. intros c Hc. rewrite forallb_forall in E. specialize (E c Hc). now destruct (list_eq_dec Nat.eq_dec (shape c) (shape b)).
Qed.
Theorem try_ragged : forall q v u e i j,
  let a k := g (nth k q []) (nth k v []) (nth k u []) in
  length v = length q -> length u = length q -> f (samples q) (samples v) (samples u) params = Err e ->
  (forall k, (k < length q)%nat -> length (a k) <> 1%nat /\
     exists o, f (row (nth k q [])) (row (nth k v [])) (row (nth k u [])) params = Ok o /\ In o (layouts (a k))) ->
  (i < length q)%nat -> (j < length q)%nat -> length (a i) <> length (a j) ->
  try_array_f f (samples q) (samples v) (samples u) params = Err ValueError.
Proof using.
  intros q v u e i j a Hv Hu He Hf Hi Hj Hd. unfold try_array_f. rewrite He.
  unfold shape0, samples at 1. cbn [rbind]. rewrite map_length.
  rewrite (mapm_all_ok _ _ _ (fun k => row (a k))).
  2:{ intros k Hk. apply in_seq in Hk. rewrite !item_samples by (try rewrite Hv; try rewrite Hu; lia).
      destruct (Hf k) as [Hn [o [Ho Hl]]]; [lia|]. cbn [rbind]. rewrite Ho. cbn [rbind]. f_equal. now apply squeeze_layout. }
  cbn [rbind]. apply array_ragged. intros [s Hs]. rewrite Forall_forall in Hs. apply Hd.
  assert (A : forall k, (k < length q)%nat -> [length (a k)] = s).
  { intros k Hk. rewrite <- shape_row. apply Hs. apply in_map_iff. exists k. split; [reflexivity|]. apply in_seq. lia. }
  assert (B : [length (a i)] = [length (a j)]) by (rewrite (A i Hi), (A j Hj); reflexivity). now injection B.
Qed.
Theorem try_raises : forall q v u e i e',
  length v = length q -> length u = length q -> f (samples q) (samples v) (samples u) params = Err e ->
  (i < length q)%nat -> f (row (nth i q [])) (row (nth i v [])) (row (nth i u [])) params = Err e' ->
  (forall k, (k < i)%nat -> exists o, f (row (nth k q [])) (row (nth k v [])) (row (nth k u [])) params = Ok o) ->
  try_array_f f (samples q) (samples v) (samples u) params = Err e'.
Proof using.
  intros q v u e i e' Hv Hu He Hi Hf Hb. unfold try_array_f. rewrite He.
  unfold shape0, samples at 1. cbn [rbind]. rewrite map_length.
  match goal with |- (do _ <- ?x; _) = _ => assert (E : x = Err e') end; [|now rewrite E].
  replace (length q) with (i + S (length q - S i))%nat by lia. rewrite seq_app. cbn [seq Nat.add].
  assert (G : forall a, (a <= i)%nat -> mapm (fun ii : nat =>
     do q_ii <- item (samples q) ii; do v_ii <- item (samples v) ii; do u_ii <- item (samples u) ii;
     do out <- f q_ii v_ii u_ii params; Ok (squeeze out)) (seq (i - a) a ++ i :: seq (S i) (length q - S i)) = Err e').
  { induction a as [|a IH]; intros Ha.
    - cbn [seq app mapm]. rewrite !item_samples by (try rewrite Hv; try rewrite Hu; lia). cbn [rbind]. now rewrite Hf.
    - cbn [seq app mapm]. rewrite !item_samples by (try rewrite Hv; try rewrite Hu; lia). cbn [rbind].
      destruct (Hb (i - S a)%nat) as [o ->]; [lia|]. cbn [rbind]. replace (S (i - S a)) with (i - a)%nat by lia. rewrite IH by lia. reflexivity. }
  specialize (G i (le_n i)). now rewrite Nat.sub_diag in G.
Qed.
End Rows.

(** ** Differences *)
Lemma minus_ar : forall k l m, minus_upto (S k) (Ar l) (Ar m) =
  if (length (shape (Ar m)) <? length (shape (Ar l)))%nat then do r <- mapm (fun c => minus_upto k c (Ar m)) l; Ok (Ar r)
  else if (length (shape (Ar l)) <? length (shape (Ar m)))%nat then do r <- mapm (fun c => minus_upto k (Ar l) c) m; Ok (Ar r)
  else if (length l =? length m)%nat then do r <- mapm (fun cd => minus_upto k (fst cd) (snd cd)) (combine l m); Ok (Ar r)
  else match l, m with
       | [c], _ => do r <- mapm (minus_upto k c) m; Ok (Ar r)
       | _, [d] => do r <- mapm (fun c => minus_upto k c d) l; Ok (Ar r)
       | _, _ => Err ValueError
       end.
Proof. reflexivity. Qed.
Lemma minus_sc : forall k x y, minus_upto k (Sc x) (Sc y) = Ok (Sc (x - y)).
Proof. now destruct k. Qed.
Lemma minus_numbers : forall k (a b : list R), length a = length b ->
  mapm (fun cd => minus_upto k (fst cd) (snd cd)) (combine (map Sc a) (map Sc b)) = Ok (map Sc (vsub a b)).
Proof.
  induction a as [|x a IH]; intros [|y b] H; try discriminate; [reflexivity|].
  cbn [map combine mapm fst snd].
  replace (minus_upto k (Sc x) (Sc y)) with (Ok (Sc (x - y))) by now destruct k.
  cbn [rbind]. rewrite IH by (injection H; auto). reflexivity.
Qed.
Lemma minus_row : forall k a b, (0 < k)%nat -> length a = length b -> minus_upto k (row a) (row b) = Ok (row (vsub a b)).
Proof.
  intros [|k] a b Hk H; [lia|]. unfold row at 1 2. cbn [minus_upto].
  fold (row a) (row b). rewrite !shape_row. cbn [length Nat.ltb Nat.leb].
  rewrite !map_length, H, Nat.eqb_refl, minus_numbers by assumption. reflexivity.
Qed.
Lemma mapm_minus_rows : forall k (a b : mat) n, (0 < k)%nat -> length a = length b ->
  Forall (fun r => length r = n) a -> Forall (fun r => length r = n) b ->
  mapm (fun cd => minus_upto k (fst cd) (snd cd)) (combine (map row a) (map row b)) = Ok (map row (rows_minus a b)).
Proof.
  induction a as [|x a IH]; intros [|y b] n Hk H Ha Hb; try discriminate; [reflexivity|].
  inversion Ha; inversion Hb; subst. cbn [map combine mapm fst snd].
  rewrite minus_row by (auto; congruence). cbn [rbind]. rewrite (IH b (length x)); auto.
Qed.
Lemma shape_samples : forall m n, m <> [] -> Forall (fun r => length r = n) m -> shape (samples m) = [length m; n].
Proof.
  intros [|x m] n Hm H; [easy|]. inversion H; subst. unfold samples. cbn [shape map length]. rewrite map_length.
  now rewrite shape_row.
Qed.
Lemma minus_samples : forall (a b : mat) n, length a = length b ->
  Forall (fun r => length r = n) a -> Forall (fun r => length r = n) b ->
  minus (samples a) (samples b) = Ok (samples (rows_minus a b)).
Proof.
  intros a b n H Ha Hb. destruct a as [|x a]; destruct b as [|y b]; try discriminate; [reflexivity|].
  unfold minus. rewrite (shape_samples (x :: a) n), (shape_samples (y :: b) n) by easy.
  change (length [length (x :: a); n] + length [length (y :: b); n])%nat with 4%nat.
  remember (x :: a) as A eqn:EA. remember (y :: b) as B eqn:EB.
  unfold samples at 1 2. rewrite minus_ar. fold (samples A) (samples B).
  rewrite (shape_samples A n), (shape_samples B n) by (subst; easy). cbn [length Nat.ltb Nat.leb].
  rewrite !map_length, H, Nat.eqb_refl.
  rewrite (mapm_minus_rows _ _ _ n) by (auto; lia). reflexivity.
Qed.

(** A column and a 1-D array *)
Lemma minus_outer : forall (a : mat) (b : vec), Forall (fun r => length r = 1%nat) a -> a <> [] -> length b = length a ->
  minus (samples a) (row b) = Ok (samples (map (fun r => map (fun y => vnth r 0 - y) b) a)).
Proof.
  intros a b Ha Hne Hb. unfold minus. rewrite (shape_samples a 1), shape_row by auto.
  change (length [length a; 1%nat] + length [length b])%nat with 3%nat.
  unfold samples at 1. unfold row at 2. rewrite minus_ar. fold (row b). fold (samples a).
  rewrite (shape_samples a 1), shape_row by auto. cbn [length Nat.ltb Nat.leb].
  rewrite (mapm_all_ok _ _ _ (fun r => match r with Ar [Sc x] => row (map (fun y => x - y) b) | _ => r end)).
  - cbn [rbind]. unfold samples. rewrite !map_map. do 2 f_equal. apply map_ext_in. intros r Hr.
    rewrite Forall_forall in Ha. specialize (Ha r Hr). destruct r as [|x [|z r]]; try discriminate. reflexivity.
  - intros c Hc. apply in_map_iff in Hc. destruct Hc as [r [<- Hr]].
    rewrite Forall_forall in Ha. specialize (Ha r Hr). destruct r as [|x [|z r]]; try discriminate.
    unfold row. cbn [map]. rewrite minus_ar.
    change (Ar [Sc x]) with (row [x]). fold (row b). rewrite !shape_row. cbn [length Nat.ltb Nat.leb].
    rewrite map_length. destruct (Nat.eqb_spec 1 (length b)) as [E1|E1].
    + destruct b as [|y [|w b]]; try discriminate. reflexivity.
    + rewrite (mapm_all_ok _ _ _ (fun c => match c with Sc y => Sc (x - y) | _ => c end)).
      * cbn [rbind]. now rewrite !map_map.
      * intros c Hc. apply in_map_iff in Hc. destruct Hc as [y [<- _]]. apply minus_sc.
Qed.

(** ** The errors *)
Lemma accelerations_rows : forall P (f : arr -> arr -> arr -> P -> Res arr) params g n q v u,
  one_sample f params g n q v u -> Forall (fun r => length r = n) (accelerations g q v u).
Proof.
  intros P f params g n q v u H. apply Forall_forall. intros r Hr. apply in_map_iff in Hr.
  destruct Hr as [i [<- Hi]]. apply in_seq in Hi. apply H. lia.
Qed.
Lemma accelerations_length : forall g q v u, length (accelerations g q v u) = length q.
Proof. intros. unfold accelerations. now rewrite map_length, seq_length. Qed.

Lemma errors_rows : forall P (f : arr -> arr -> arr -> P -> Res arr) params g n N q q_d v v_d q_d_d u,
  n <> 1%nat -> length q = N -> wide n N q_d -> wide n N v -> wide n N v_d -> wide n N q_d_d -> length u = N ->
  one_sample f params g n q v u -> one_sample f params g n q q_d u ->
  (forall o, f (samples q) (samples v) (samples u) params = Ok o -> o = samples (accelerations g q v u)) ->
  (forall o, f (samples q) (samples q_d) (samples u) params = Ok o -> o = samples (accelerations g q q_d u)) ->
  errors_of f (samples q) (samples q_d) (samples v) (samples v_d) (samples q_d_d) (samples u) params =
  Ok (samples (rows_minus q_d v), samples (rows_minus v_d (accelerations g q v u)),
      samples (rows_minus q_d_d (accelerations g q q_d u))).
Proof.
  intros P f params g n N q q_d v v_d q_d_d u Hn Lq [L1 W1] [L2 W2] [L3 W3] [L4 W4] Lu S1 S2 H1 H2.
  unfold errors_of. rewrite (minus_samples q_d v n) by (auto; congruence). cbn [rbind].
  rewrite (proj2 (try_exactly f params g n q v u ltac:(congruence) ltac:(congruence) Hn S1) H1). cbn [rbind].
  rewrite (minus_samples v_d _ n); [|rewrite accelerations_length; congruence|assumption|now apply (accelerations_rows _ f params)].
  cbn [rbind].
  rewrite (proj2 (try_exactly f params g n q q_d u ltac:(congruence) ltac:(congruence) Hn S2) H2). cbn [rbind].
  rewrite (minus_samples q_d_d _ n); [|rewrite accelerations_length; congruence|assumption|now apply (accelerations_rows _ f params)].
  reflexivity.
Qed.

Lemma errors_one : forall P (f : arr -> arr -> arr -> P -> Res arr) params g N q q_d v v_d q_d_d u e1 e2,
  (0 < N)%nat -> length q = N -> wide 1 N q_d -> wide 1 N v -> wide 1 N v_d -> wide 1 N q_d_d -> length u = N ->
  one_sample f params g 1 q v u -> one_sample f params g 1 q q_d u ->
  f (samples q) (samples v) (samples u) params = Err e1 -> f (samples q) (samples q_d) (samples u) params = Err e2 ->
  errors_of f (samples q) (samples q_d) (samples v) (samples v_d) (samples q_d_d) (samples u) params =
  Ok (samples (rows_minus q_d v),
      samples (map (fun r => map (fun a => vnth r 0 - vnth a 0) (accelerations g q v u)) v_d),
      samples (map (fun r => map (fun a => vnth r 0 - vnth a 0) (accelerations g q q_d u)) q_d_d)).
Proof.
  intros P f params g N q q_d v v_d q_d_d u e1 e2 HN Lq [L1 W1] [L2 W2] [L3 W3] [L4 W4] Lu S1 S2 H1 H2.
  unfold errors_of. rewrite (minus_samples q_d v 1) by (auto; congruence). cbn [rbind].
  rewrite (try_one f params g q v u ltac:(congruence) ltac:(congruence) S1 e1 H1). cbn [rbind].
  rewrite minus_outer; [|assumption|intros ->; cbn in L3; lia|rewrite map_length, accelerations_length; congruence].
  cbn [rbind].
  rewrite (try_one f params g q q_d u ltac:(congruence) ltac:(congruence) S2 e2 H2). cbn [rbind].
  rewrite minus_outer; [|assumption|intros ->; cbn in L4; lia|rewrite map_length, accelerations_length; congruence].
  cbn [rbind]. do 3 f_equal; [f_equal|]; apply map_ext; intros r; now rewrite map_map.
Qed.

(** ** A function of one sample that accepts arrays: array([q[1], q[0]]) *)
Definition exchange (q v u : arr) (_ : unit) : Res arr := do a <- item q 1; do b <- item q 0; array [a; b].
Definition exchanged (q v u : vec) : vec := [vnth q 1; vnth q 0].
Lemma exchange_sample : forall q v u, Forall (fun r => length r = 2%nat) q -> one_sample exchange tt exchanged 2 q v u.
Proof.
  intros q v u H i Hi. split; [reflexivity|].
  rewrite Forall_forall in H. specialize (H (nth i q []) (nth_In _ _ Hi)).
  destruct (nth i q []) as [|x [|y [|z l]]]; try discriminate.
  eexists. split; [reflexivity|]. now left.
Qed.
Lemma exchange_arrays : forall q v u, (2 <= length q)%nat -> Forall (fun r => length r = 2%nat) q ->
  try_array_f exchange (samples q) (samples v) (samples u) tt = Ok (samples [nth 1 q []; nth 0 q []]).
Proof.
  intros [|a [|b q]] v u Hq H; cbn in Hq; try lia. inversion H as [|? ? Ha H']; inversion H' as [|? ? Hb _]; subst.
  unfold try_array_f, exchange, samples. cbn [map item nth_error rbind nth].
  rewrite (array_same _ [2%nat]); [reflexivity|].
  intros c [<-|[<-|[]]]; rewrite shape_row; now f_equal.
Qed.
Lemma exchange_wrong : forall q v u, (3 <= length q)%nat -> Forall (fun r => length r = 2%nat) q ->
  try_array_f exchange (samples q) (samples v) (samples u) tt <> Ok (samples (accelerations exchanged q v u)).
Proof.
  intros q v u Hq H E. rewrite exchange_arrays in E by (auto; lia).
  assert (L : forall m m', samples m = samples m' -> length m = length m').
  { intros m m' Em. unfold samples in Em. assert (E1 : map row m = map row m') by congruence.
    rewrite <- (map_length row m), E1. apply map_length. }
  assert (E2 : samples [nth 1 q []; nth 0 q []] = samples (accelerations exchanged q v u)) by congruence.
  apply L in E2. rewrite accelerations_length in E2. cbn in E2. lia.
Qed.

(** ** A function of one sample that raises for arrays: it calls math.sin *)
Definition math_sin (a : arr) : Res R := match a with Sc x => Ok (sin x) | Ar _ => Err TypeError end.
Definition pendulums (q v u : arr) (_ : unit) : Res arr :=
  do a <- item q 0; do sa <- math_sin a; do b <- item q 1; do sb <- math_sin b; array [Sc (- sa); Sc (- sb)].
Definition falls (q v u : vec) : vec := [- sin (vnth q 0); - sin (vnth q 1)].
Lemma pendulums_sample : forall q v u, Forall (fun r => length r = 2%nat) q -> one_sample pendulums tt falls 2 q v u.
Proof.
  intros q v u H i Hi. split; [reflexivity|].
  rewrite Forall_forall in H. specialize (H (nth i q []) (nth_In _ _ Hi)).
  destruct (nth i q []) as [|x [|y [|z l]]]; try discriminate.
  eexists. split; [reflexivity|]. now left.
Qed.
Lemma pendulums_raise : forall q v u, q <> [] -> pendulums (samples q) v u tt = Err TypeError.
Proof. intros [|a q] v u H; [easy|reflexivity]. Qed.
Definition pendulum (q v u : arr) (_ : unit) : Res arr := do a <- item q 0; do sa <- math_sin a; array [Sc (- sa)].
Definition fall (q v u : vec) : vec := [- sin (vnth q 0)].
Lemma pendulum_sample : forall q v u, Forall (fun r => length r = 1%nat) q -> one_sample pendulum tt fall 1 q v u.
Proof.
  intros q v u H i Hi. split; [reflexivity|].
  rewrite Forall_forall in H. specialize (H (nth i q []) (nth_In _ _ Hi)).
  destruct (nth i q []) as [|x [|z l]]; try discriminate.
  eexists. split; [reflexivity|]. now left.
Qed.
Lemma pendulum_raise : forall q v u, q <> [] -> pendulum (samples q) v u tt = Err TypeError.
Proof. intros [|a q] v u H; [easy|reflexivity]. Qed.
