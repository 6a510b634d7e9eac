(** C110: the groups of tuplet notes found in a layer of a Humdrum measure. *)
From Coq Require Import ZArith QArith Lia.
From Verif Require Import PyStr RecipModel DurationModel Pow2Proofs DurationProofs TupletModel.
Local Close Scope Q_scope.

(** A note whose undotted length is a power of two of a quarter note belongs to no
    tuplet. *)
Definition ordinary (x : item) : Prop := is_power_of_two (i_nodots x).
Definition total (s : list item) : Q := sumDur s.
Definition timed (l : list item) : Prop := Forall (fun x => (0 < i_dur x)%Q /\ (0 < i_nodots x)%Q) l.
Lemma plain_ordinary x : (0 < i_nodots x)%Q -> (plain x = true <-> ordinary x).
Proof. intros P. unfold plain, ordinary. apply isPowerOfTwo_spec. apply Qlt_le_weak. exact P. Qed.

(** The group is complete: its length is a power of two, or reaches the length that was
    asked for. *)
Definition complete (r : option Q) (g : list item) : Prop :=
  2 <= length g /\ match r with None => is_power_of_two (total g) | Some q => (q <= total g)%Q end.
(** Why a group [x :: s] that has the items [pre] before it ends before [t]. *)
Inductive ends (pre : list item) (x : item) (s t : list item) : bool -> Prop :=
  (** it is a beam whose length can be written with up to four dots *)
  | by_beam y : i_r x = None -> i_beam x <> 0 -> last (x :: s) x = y -> i_beam y = i_beam x ->
      (forall z, In z pre \/ In z t -> i_beam z <> i_beam x) ->
      (exists k, k <= 4 /\ exists b, is_power_of_two b /\ (total (x :: s) == b * (2 - (1 # 2) ^ Z.of_nat k))%Q) -> ends pre x s t false
  (** it is complete, and was not before *)
  | by_length : complete (i_r x) (x :: s) -> (forall s1 s2, s = s1 ++ s2 -> s2 <> [] -> ~ complete (i_r x) (x :: s1)) ->
      (forall z, In z s -> i_break z = false) -> ends pre x s t (match i_r x with Some _ => true | None => false end)
  (** it is not complete, but there is nothing more to take, or a break *)
  | by_stop f : (forall s1 s2, s = s1 ++ s2 -> ~ complete (i_r x) (x :: s1)) -> (forall z, In z s -> i_break z = false) ->
      match t with [] => f = false | y :: _ => ordinary y /\ f = false \/ ~ ordinary y /\ i_break y = true /\ f = true end -> ends pre x s t f.
(** The items are in groups with the numbers [num], [num + 1]...; 0 stands for no group. *)
Inductive Grouped : list item -> nat -> list item -> list (nat * bool) -> Prop :=
  | G_nil pre num : Grouped pre num [] []
  | G_plain pre num x l gs : ordinary x -> Grouped (pre ++ [x]) num l gs -> Grouped pre num (x :: l) ((0, false) :: gs)
  | G_group pre num x s t f gs1 gs2 : Forall (fun y => ~ ordinary y) (x :: s) -> ends pre x s t f ->
      length gs1 = S (length s) -> Forall (fun g => fst g = num) gs1 ->
      (forall i, nth_error (map snd gs1) i = Some true <-> f = true /\ (i = 0 \/ i = length s)) ->
      Grouped (pre ++ x :: s) (S num) t gs2 -> Grouped pre num (x :: s ++ t) (gs1 ++ gs2).

Lemma sumDur_app a b : (sumDur (a ++ b) == sumDur a + sumDur b)%Q.
Proof. induction a as [|x a IH]; [change (sumDur b == 0 + sumDur b)%Q; ring|]. change (i_dur x + sumDur (a ++ b) == i_dur x + sumDur a + sumDur b)%Q. rewrite IH. ring. Qed.
Lemma timed_pos l : timed l -> (0 <= sumDur l)%Q.
Proof.
  induction 1 as [|x l [H _] T IH]; [apply Qle_refl|]. cbn [sumDur fold_right]. fold (sumDur l).
  apply (Qplus_le_compat 0 _ 0 _); [apply Qlt_le_weak; exact H|exact IH].
Qed.
Definition hit (r : option Q) (d : Q) : bool := match r with Some q => Qle_bool q d | None => isPowerOfTwo d end.
Lemma hit_proper r a b : (a == b)%Q -> hit r a = hit r b.
Proof.
  intros E. destruct r as [q|]; [|apply isPowerOfTwo_proper; exact E]. cbn.
  destruct (Qle_bool q a) eqn:A, (Qle_bool q b) eqn:B; try reflexivity.
  - apply Qle_bool_iff in A. rewrite E in A. apply Qle_bool_iff in A. congruence.
  - apply Qle_bool_iff in B. rewrite <- E in B. apply Qle_bool_iff in B. congruence.
Qed.
Lemma hit_complete r x s : timed (x :: s) -> s <> [] -> (hit r (sumDur (x :: s)) = true <-> complete r (x :: s)).
Proof.
  intros T N. unfold complete, total. assert (L : 2 <= length (x :: s)) by (destruct s; [contradiction|cbn; lia]).
  destruct r as [q|]; cbn [hit].
  - rewrite Qle_bool_iff. tauto.
  - rewrite isPowerOfTwo_spec by (apply timed_pos; exact T). tauto.
Qed.
Lemma not_complete_one r x : ~ complete r [x].
Proof. intros [L _]. cbn in L. lia. Qed.

Lemma scan_spec r : forall l d, exists s t f, l = s ++ t /\ scan r d l = (S (length s), f) /\
  forallb (fun y => negb (plain y)) s = true /\ (forall z, In z s -> i_break z = false) /\
  (forall s1 s2, s = s1 ++ s2 -> s1 <> [] -> s2 <> [] -> hit r (d + sumDur s1) = false) /\
  ((s <> [] /\ hit r (d + sumDur s) = true /\ f = match r with Some _ => true | None => false end) \/
   ((s <> [] -> hit r (d + sumDur s) = false) /\
    match t with [] => f = false | y :: _ => (plain y = true /\ f = false) \/ (plain y = false /\ i_break y = true /\ f = true) end)).
Proof.
  induction l as [|y l IH]; intros d.
  - exists [], [], false. split; [reflexivity|]. split; [reflexivity|]. split; [reflexivity|]. split; [intros z []|].
    split; [intros s1 s2 E N; destruct s1; [contradiction|discriminate]|]. right. split; [contradiction|reflexivity].
  - cbn [scan]. destruct (plain y) eqn:P.
    { exists [], (y :: l), false. split; [reflexivity|]. split; [reflexivity|]. split; [reflexivity|]. split; [intros z []|].
      split; [intros s1 s2 E N; destruct s1; [contradiction|discriminate]|]. right. split; [contradiction|]. left. auto. }
    destruct (i_break y) eqn:B.
    { exists [], (y :: l), true. split; [reflexivity|]. split; [reflexivity|]. split; [reflexivity|]. split; [intros z []|].
      split; [intros s1 s2 E N; destruct s1; [contradiction|discriminate]|]. right. split; [contradiction|]. right. auto. }
    fold (hit r (d + i_dur y)). destruct (hit r (d + i_dur y)) eqn:H.
    + exists [y], l, (match r with Some _ => true | None => false end). split; [reflexivity|]. split; [reflexivity|]. split; [cbn; rewrite P; reflexivity|].
      split; [intros z [<- | []]; exact B|]. split.
      * intros s1 s2 E N1 N2. destruct s1 as [|a [|b s1]]; [contradiction| |discriminate]. destruct s2; [contradiction|discriminate].
      * left. split; [discriminate|]. split; [|reflexivity]. rewrite <- H. apply hit_proper. cbn. ring.
    + destruct (IH (d + i_dur y)%Q) as (s & t & f & E & S & F & BR & PR & C). exists (y :: s), t, f.
      split; [cbn; rewrite E; reflexivity|]. split; [rewrite S; reflexivity|]. split; [cbn; rewrite P; exact F|].
      split; [intros z [<- | I]; [exact B|apply BR; exact I]|].
      assert (X : forall s1, hit r (d + sumDur (y :: s1)) = hit r (d + i_dur y + sumDur s1)).
      { intros s1. apply hit_proper. cbn [sumDur fold_right]. fold (sumDur s1). ring. }
      split.
      * intros s1 s2 E1 N1 N2. destruct s1 as [|a s1]; [contradiction|]. injection E1 as <- E1. rewrite X. destruct s1 as [|b s1].
        -- rewrite <- H. apply hit_proper. cbn. ring.
        -- apply (PR (b :: s1) s2); [exact E1|discriminate|exact N2].
      * destruct C as [(N & C1 & C2) | (C1 & C2)]; [left; split; [discriminate|]; split; [rewrite X; exact C1|exact C2]|right].
        split; [|exact C2]. intros _. rewrite X. destruct s as [|b s].
        -- rewrite <- H. apply hit_proper. cbn. ring.
        -- apply C1. discriminate.
Qed.

Lemma dotted_spec q : (0 <= q)%Q -> dotted q = true -> exists k, k <= 4 /\ exists b, is_power_of_two b /\ (q == b * (2 - (1 # 2) ^ Z.of_nat k))%Q.
Proof.
  intros P H. unfold dotted in H. rewrite !orb_true_iff in H.
  assert (K : forall c, (0 < c)%Q -> isPowerOfTwo (q / c) = true -> is_power_of_two (q / c)).
  { intros c C. apply isPowerOfTwo_spec. apply Qmult_le_0_compat; [exact P|]. apply Qinv_le_0_compat, Qlt_le_weak, C. }
  destruct H as [[[[H | H] | H] | H] | H].
  - exists 0. split; [lia|]. exists q. split; [apply isPowerOfTwo_spec; assumption|]. cbn. ring.
  - exists 1. split; [lia|]. eexists. split; [apply (K (3 # 2)%Q); [reflexivity|exact H]|]. cbn. field.
  - exists 2. split; [lia|]. eexists. split; [apply (K (7 # 4)%Q); [reflexivity|exact H]|]. cbn. field.
  - exists 3. split; [lia|]. eexists. split; [apply (K (15 # 8)%Q); [reflexivity|exact H]|]. cbn. field.
  - exists 4. split; [lia|]. eexists. split; [apply (K (31 # 16)%Q); [reflexivity|exact H]|]. cbn. field.
Qed.
Lemma lastOff_spec b : forall l x, i_beam x = b -> exists s t y, l = s ++ t /\ lastOff b (x :: l) = length s /\
  last (x :: s) x = y /\ i_beam y = b /\ (forall z, In z t -> i_beam z <> b).
Proof.
  assert (L : forall l x d, existsb (inBeamB b) l = true -> exists s y t, l = s ++ y :: t /\ lastOff b (x :: l) = S (length s) /\ i_beam y = b /\ (forall z, In z t -> i_beam z <> b) /\ last (x :: s ++ [y]) d = y).
  { induction l as [|a l IH]; intros x d E; [discriminate|]. cbn [lastOff]. rewrite E.
    change (if existsb (inBeamB b) l then S (lastOff b l) else 0) with (lastOff b (a :: l)). destruct (existsb (inBeamB b) l) eqn:E2.
    - destruct (IH a d eq_refl) as (s & y & t & -> & Q & B & N & LA). exists (a :: s), y, t. split; [reflexivity|]. split; [rewrite Q; reflexivity|]. split; [exact B|]. split; [exact N|].
      change (last (x :: (a :: s) ++ [y]) d) with (last (a :: s ++ [y]) d). exact LA.
    - exists [], a, l. split; [reflexivity|]. split; [cbn [lastOff]; rewrite E2; reflexivity|]. cbn [existsb] in E. rewrite E2, orb_false_r in E. apply Nat.eqb_eq in E.
      split; [exact E|]. split; [|reflexivity]. intros z I Z. assert (existsb (inBeamB b) l = true) by (apply existsb_exists; exists z; split; [exact I|apply Nat.eqb_eq; exact Z]). congruence. }
  intros l x B. destruct (existsb (inBeamB b) l) eqn:E.
  - destruct (L l x x E) as (s & y & t & -> & Q & BY & N & LA). exists (s ++ [y]), t, y. split; [rewrite <- app_assoc; reflexivity|].
    split; [rewrite app_length, Nat.add_1_r; exact Q|]. split; [exact LA|]. split; [exact BY|exact N].
  - exists [], l, x. split; [reflexivity|]. split; [cbn [lastOff]; rewrite E; reflexivity|]. split; [reflexivity|]. split; [exact B|].
    intros z I Z. assert (existsb (inBeamB b) l = true) by (apply existsb_exists; exists z; split; [exact I|apply Nat.eqb_eq; exact Z]). congruence.
Qed.
Lemma timed_app a b : timed (a ++ b) <-> timed a /\ timed b.
Proof. apply Forall_app. Qed.
Lemma firstn_len {A} (s t : list A) : firstn (length s) (s ++ t) = s.
Proof. induction s; cbn; [reflexivity|]. f_equal. assumption. Qed.
Lemma skipn_len {A} (s t : list A) : skipn (length s) (s ++ t) = t.
Proof. induction s; cbn; [reflexivity|assumption]. Qed.

Lemma groupLen_spec pre x l : timed (x :: l) -> plain x = false -> exists s t f, l = s ++ t /\ groupLen pre x l = (S (length s), f) /\
  forallb (fun y => negb (plain y)) s = true /\ ends pre x s t f.
Proof.
  intros T P.
  assert (SC : exists s t f, l = s ++ t /\ scan (i_r x) (i_dur x) l = (S (length s), f) /\ forallb (fun y => negb (plain y)) s = true /\ ends pre x s t f).
  { destruct (scan_spec (i_r x) l (i_dur x)) as (s & t & f & E & S & F & BR & PR & C). exists s, t, f. split; [exact E|]. split; [exact S|]. split; [exact F|].
    assert (TS : forall s1 s2, s = s1 ++ s2 -> timed (x :: s1)).
    { intros s1 s2 E1. subst l s. inversion T as [|? ? T1 T2]; subst. constructor; [exact T1|]. apply timed_app in T2. destruct T2 as [T2 _]. apply timed_app in T2. tauto. }
    assert (HH : forall s1 s2, s = s1 ++ s2 -> s1 <> [] -> (hit (i_r x) (i_dur x + sumDur s1) = true <-> complete (i_r x) (x :: s1))).
    { intros s1 s2 E1 N. apply (hit_complete _ x s1 (TS s1 s2 E1) N). }
    assert (PC : forall s1 s2, s = s1 ++ s2 -> s2 <> [] -> ~ complete (i_r x) (x :: s1)).
    { intros s1 s2 E1 N2 CO. destruct s1 as [|a s1]; [exact (not_complete_one _ _ CO)|]. apply (HH (a :: s1) s2 E1) in CO; [|discriminate].
      rewrite (PR (a :: s1) s2 E1) in CO; [discriminate|discriminate|exact N2]. }
    destruct C as [(N & C1 & ->) | (C1 & C2)].
    - apply by_length; [|exact PC|exact BR]. apply (HH s []); [rewrite app_nil_r; reflexivity|exact N|exact C1].
    - apply by_stop; [|exact BR|].
      + intros s1 s2 E1. destruct s2 as [|b s2]; [|apply (PC s1 (b :: s2) E1); discriminate]. rewrite app_nil_r in E1. subst s1.
        intros CO. destruct s as [|a s]; [exact (not_complete_one _ _ CO)|]. apply (HH (a :: s) []) in CO; [|rewrite app_nil_r; reflexivity|discriminate].
        rewrite C1 in CO; discriminate.
      + destruct t as [|y t]; [exact C2|]. assert (PY : (0 < i_nodots y)%Q).
        { subst l. inversion T as [|? ? T1 T2]; subst. apply timed_app in T2. destruct T2 as [_ T2]. inversion T2 as [|? ? [_ T3] _]; subst. exact T3. }
        rewrite <- (plain_ordinary y PY). destruct C2 as [C2 | (C2 & C3 & C4)]; [left; exact C2|right]. rewrite C2. split; [discriminate|]. split; assumption. }
  unfold groupLen. destruct (i_r x) as [r|] eqn:R; [exact SC|]. destruct (beamLen pre x l) as [n|] eqn:B; [|exact SC]. clear SC.
  unfold beamLen in B. destruct (i_beam x =? 0) eqn:B0; [discriminate|]. apply Nat.eqb_neq in B0. cbn [orb] in B.
  destruct (existsb (inBeamB (i_beam x)) pre) eqn:B1; [discriminate|].
  destruct (lastOff_spec (i_beam x) l x eq_refl) as (s & t & y & E & LO & LA & BY & NT). rewrite LO in B.
  assert (FN : firstn (S (length s)) (x :: l) = x :: s) by (subst l; cbn; f_equal; apply firstn_len). rewrite FN in B.
  destruct (dotted (sumDur (x :: s))) eqn:D; [|discriminate]. destruct (existsb plain (x :: s)) eqn:EP; [discriminate|]. injection B as <-.
  exists s, t, false. split; [exact E|]. split; [reflexivity|]. split.
  - apply forallb_forall. intros z I. apply negb_true_iff, not_true_is_false. intros Z.
    assert (existsb plain (x :: s) = true) by (apply existsb_exists; exists z; split; [right; exact I|exact Z]). congruence.
  - apply (by_beam _ _ _ _ y); try assumption.
    + intros z [I | I]; [|apply NT; exact I]. intros Z.
      assert (existsb (inBeamB (i_beam x)) pre = true) by (apply existsb_exists; exists z; split; [exact I|apply Nat.eqb_eq; exact Z]). congruence.
    + apply dotted_spec; [|exact D]. apply timed_pos. subst l. inversion T as [|? ? T1 T2]; subst. constructor; [exact T1|]. apply timed_app in T2. tauto.
Qed.
Lemma block_length num n f : length (block num n f) = n.
Proof. unfold block. rewrite map_length. apply seq_length. Qed.
Lemma block_fst num n f : Forall (fun g => fst g = num) (block num n f).
Proof. apply Forall_forall. intros g I. apply in_map_iff in I. destruct I as (i & <- & _). reflexivity. Qed.
Lemma groups_grouped : forall fuel pre num l, length l <= fuel -> timed l -> Grouped pre num l (groupsFrom fuel pre num l).
Proof.
  induction fuel as [|fuel IH]; intros pre num l L T; [destruct l; [constructor|cbn in L; lia]|]. destruct l as [|x l]; [constructor|].
  cbn [groupsFrom]. assert (PX : (0 < i_nodots x)%Q) by (inversion T as [|? ? [_ H] _]; subst; exact H). destruct (plain x) eqn:P.
  - apply G_plain; [apply plain_ordinary; assumption|]. apply IH; [cbn in L; lia|]. inversion T; assumption.
  - destruct (groupLen_spec pre x l T P) as (s & t & f & E & G & F & EN). rewrite G. subst l.
    replace (firstn (S (length s)) (x :: s ++ t)) with (x :: s) by (cbn; f_equal; symmetry; apply firstn_len).
    replace (skipn (S (length s)) (x :: s ++ t)) with t by (cbn; symmetry; apply skipn_len).
    inversion T as [|? ? T1 T2]; subst. apply timed_app in T2. destruct T2 as [TS TT]. apply G_group with (f := f); try assumption.
    + constructor; [intros O; apply (plain_ordinary x PX) in O; congruence|]. apply Forall_forall. intros y I O. rewrite forallb_forall in F. specialize (F y I).
      apply negb_true_iff in F. apply plain_ordinary in O; [congruence|]. unfold timed in TS. rewrite Forall_forall in TS. apply (TS y I).
    + apply block_length.
    + apply block_fst.
    + intros i. unfold block. rewrite map_map. cbn [snd]. rewrite nth_error_map. destruct (Nat.lt_ge_cases i (S (length s))) as [I | I].
      * rewrite (nth_error_nth' _ 0) by (rewrite seq_length; exact I). rewrite seq_nth by exact I. cbn [option_map plus].
        replace (S (length s) - 1) with (length s) by lia.
        split; [intros Q; injection Q as Q; apply andb_true_iff in Q; rewrite orb_true_iff, !Nat.eqb_eq in Q; exact Q|]. intros Q. f_equal. apply andb_true_iff. rewrite orb_true_iff, !Nat.eqb_eq. exact Q.
      * rewrite (proj2 (nth_error_None _ _)) by (rewrite seq_length; exact I). split; [discriminate|]. intros [_ [-> | ->]]; lia.
    + apply IH; [|exact TT]. cbn in L. rewrite app_length in L. lia.
Qed.
(** Every note that is not ordinary is in exactly one group of neighbours, and every
    group ends where it should. *)
Theorem C110_groups : forall l, timed l -> Grouped [] 1 l (groups l).
Proof. intros l T. apply groups_grouped; [apply le_n|exact T]. Qed.
Print Assumptions C110_groups.
Example C110_groups_nonvacuous :
  let n q b := mkI q q b None None false in
  let l := [n 1%Q 0; n (1 # 3)%Q 1; n (1 # 3)%Q 1; n (1 # 3)%Q 1; n (2 # 3)%Q 0; n (1 # 3)%Q 0; n (2 # 5)%Q 0; n 2%Q 0] in
  timed l /\ groups l = [(0, false); (1, false); (1, false); (1, false); (2, false); (2, false); (3, false); (0, false)].
Proof. split; [repeat constructor|]. vm_compute. reflexivity. Qed.
