(** C151: after a measure of an MEI file is read, its voices all last as long as the measure,
    without gaps. *)
From Coq Require Import List Ascii String NArith Bool Arith QArith Lqa Lia Permutation.
From Verif Require Import PyStr PyStrProofs RecipModel DurationModel DurationProofs MeiFillModel.
Import ListNotations.
Local Close Scope Q_scope.

(** Each thing begins where the one before ends. *)
Fixpoint seamless (at_ : Q) (v : voice) : Prop :=
  match v with
  | [] => True
  | e :: r => (offset e == at_)%Q /\ seamless (at_ + ql e)%Q r
  end.

Fixpoint sum_of (v : voice) : Q :=
  match v with
  | [] => 0%Q
  | e :: r => (ql e + sum_of r)%Q
  end.

Definition lengths_ok (v : voice) : Prop := forall e, In e v -> (0 <= ql e)%Q.

Lemma qmax_le_l : forall a b, (a <= qmax a b)%Q.
Proof.
  intros a b. unfold qmax. destruct (Qle_bool a b) eqn:E; [apply Qle_bool_iff; exact E|lra].
Qed.
Lemma qmax_le_r : forall a b, (b <= qmax a b)%Q.
Proof.
  intros a b. unfold qmax. destruct (Qle_bool a b) eqn:E; [lra|].
  apply Qlt_le_weak. apply Qle_bool_false. exact E.
Qed.
Lemma qmax_case : forall a b, qmax a b = a \/ qmax a b = b.
Proof. intros a b. unfold qmax. destruct (Qle_bool a b); [right|left]; reflexivity. Qed.

Lemma seamless_proper : forall v a b, (a == b)%Q -> seamless a v -> seamless b v.
Proof.
  induction v as [|e v IH]; intros a b E H; [exact I|]. destruct H as [H1 H2]. split.
  - rewrite H1. exact E.
  - eapply IH; [|exact H2]. rewrite E. reflexivity.
Qed.

Lemma sum_of_app : forall a b, (sum_of (a ++ b) == sum_of a + sum_of b)%Q.
Proof.
  induction a as [|e a IH]; intros b; cbn [app sum_of]; [ring|]. rewrite IH. ring.
Qed.

Lemma sum_nonneg : forall v, lengths_ok v -> (0 <= sum_of v)%Q.
Proof.
  induction v as [|e v IH]; intros H; cbn [sum_of]; [lra|].
  assert (0 <= ql e)%Q by (apply H; left; reflexivity).
  assert (0 <= sum_of v)%Q by (apply IH; intros x Hx; apply H; right; exact Hx). lra.
Qed.

Lemma length_from : forall v a m, lengths_ok v -> seamless a v -> (m <= a)%Q ->
  v <> [] ->
  (fold_left (fun m e => qmax m (offset e + ql e)) v m == a + sum_of v)%Q.
Proof.
  induction v as [|e v IH]; intros a m L S M N; [contradiction N; reflexivity|].
  destruct S as [S1 S2]. cbn [fold_left sum_of].
  assert (Le : (0 <= ql e)%Q) by (apply L; left; reflexivity).
  assert (Lv : lengths_ok v) by (intros x Hx; apply L; right; exact Hx).
  assert (Q : (qmax m (offset e + ql e) == a + ql e)%Q).
  { unfold qmax. destruct (Qle_bool m (offset e + ql e)) eqn:E; [rewrite S1; reflexivity|].
    apply Qle_bool_false in E. lra. }
  destruct v as [|x v].
  - cbn [fold_left sum_of]. rewrite Q. ring.
  - rewrite (IH (a + ql e)%Q); [ring|exact Lv|exact S2|rewrite Q; lra|discriminate].
Qed.

Lemma voice_length_sum : forall v, lengths_ok v -> seamless 0 v ->
  (voice_length v == sum_of v)%Q.
Proof.
  intros v L S. destruct v as [|e v]; [reflexivity|]. unfold voice_length.
  rewrite (length_from (e :: v) 0 0); [ring|exact L|exact S|lra|discriminate].
Qed.

Lemma seamless_snoc : forall v a e, seamless a v -> (offset e == a + sum_of v)%Q ->
  seamless a (v ++ [e]).
Proof.
  induction v as [|x v IH]; intros a e S E; cbn [app seamless sum_of] in *.
  - split; [|exact I]. rewrite E. ring.
  - destruct S as [S1 S2]. split; [exact S1|]. apply IH; [exact S2|]. rewrite E. ring.
Qed.

(** A hidden rest that the reader adds. *)
Definition fresh (e : ev) : Prop := added e = true /\ wasMRest e = false.

(** What is added comes after all, and adds up. *)
Lemma pad_list : forall l v, lengths_ok v -> seamless 0 v -> Forall (fun q => 0 <= q)%Q l ->
  let r := fold_left (fun v q => append (fun o => mkEv o q false true 0) v) l v in
  seamless 0 r /\ lengths_ok r /\ (sum_of r == sum_of v + total l)%Q
  /\ exists more, r = v ++ more /\ Forall fresh more.
Proof.
  induction l as [|q l IH]; intros v L S F; cbn [fold_left total].
  - split; [exact S|]. split; [exact L|]. split; [ring|]. exists [].
    split; [symmetry; apply app_nil_r|constructor].
  - inversion F as [|? ? Fq Fl]. subst.
    set (e := mkEv (voice_length v) q false true 0).
    assert (S' : seamless 0 (v ++ [e])).
    { apply seamless_snoc; [exact S|]. cbn [offset e]. rewrite voice_length_sum by assumption.
      unfold e. cbn [offset]. ring. }
    assert (L' : lengths_ok (v ++ [e])).
    { intros x Hx. apply in_app_or in Hx as [Hx|[Hx|[]]]; [apply L; exact Hx|]. subst x. exact Fq. }
    change (append (fun o => mkEv o q false true 0) v) with (v ++ [e]).
    destruct (IH (v ++ [e]) L' S' Fl) as [I1 [I2 [I3 [more [I4 I5]]]]].
    split; [exact I1|]. split; [exact I2|]. split.
    + rewrite I3, sum_of_app. cbn [sum_of ql e]. unfold e. cbn [ql]. ring.
    + exists (e :: more). split; [rewrite I4, <- app_assoc; reflexivity|].
      constructor; [split; reflexivity|exact I5].
Qed.

Lemma pad_spec : forall v d, lengths_ok v -> seamless 0 v -> (0 < d)%Q ->
  seamless 0 (pad v d) /\ lengths_ok (pad v d) /\ (sum_of (pad v d) == sum_of v + d)%Q
  /\ exists more, pad v d = v ++ more /\ Forall fresh more.
Proof.
  intros v d L S P. unfold pad.
  destruct (getPowerOfTwoQuarterLengthsWithDotsAddingTo d) as [l|] eqn:E;
    [|destruct (split_total d E)].
  destruct (split_adds d l E) as [T A].
  assert (F : Forall (fun q => 0 <= q)%Q l).
  { destruct (A P) as [A'|A'].
    - rewrite A'. constructor; [lra|constructor].
    - eapply Forall_impl; [|exact A']. intros q [H _]. lra. }
  destruct (pad_list l v L S F) as [H1 [H2 [H3 H4]]].
  split; [exact H1|]. split; [exact H2|]. split; [rewrite H3, T; reflexivity|exact H4].
Qed.

(** How long a voice is when its measure rests last [target]. *)
Fixpoint sum_with (target : Q) (v : voice) : Q :=
  match v with
  | [] => 0%Q
  | e :: r => ((if wasMRest e then target else ql e) + sum_with target r)%Q
  end.

Definition same_thing (target : Q) (a b : ev) : Prop :=
  what b = what a /\ added b = added a
  /\ ql b = (if wasMRest a then target else ql a).

Lemma correct_spec : forall target v a c, (0 <= target)%Q -> lengths_ok v -> seamless a v ->
  seamless (a + c)%Q (correct target c v) /\ lengths_ok (correct target c v)
  /\ (sum_of (correct target c v) == sum_with target v)%Q
  /\ Forall2 (same_thing target) v (correct target c v).
Proof.
  intros target. induction v as [|e v IH]; intros a c P L S; cbn [correct sum_with].
  - split; [exact I|]. split; [intros x []|]. split; [reflexivity|constructor].
  - destruct S as [S1 S2]. cbv zeta.
    assert (Le : (0 <= ql e)%Q) by (apply L; left; reflexivity).
    assert (Lv : lengths_ok v) by (intros x Hx; apply L; right; exact Hx).
    assert (O : ((if Qeq_bool c 0 then offset e else offset e + c) == a + c)%Q).
    { destruct (Qeq_bool c 0) eqn:E; [|rewrite S1; reflexivity].
      apply Qeq_bool_iff in E. rewrite S1, E. ring. }
    destruct (wasMRest e) eqn:W.
    + destruct (IH (a + ql e)%Q (c + (target - ql e))%Q P Lv S2) as [I1 [I2 [I3 I4]]].
      split; [|split; [|split]].
      * split; [exact O|]. eapply seamless_proper; [|exact I1]. cbn [ql]. ring.
      * intros x [Hx|Hx]; [subst x; exact P|apply I2; exact Hx].
      * cbn [sum_of ql]. rewrite I3. reflexivity.
      * constructor; [|exact I4]. unfold same_thing. rewrite W.
        split; [|split]; reflexivity.
    + destruct (IH (a + ql e)%Q c P Lv S2) as [I1 [I2 [I3 I4]]].
      split; [|split; [|split]].
      * split; [exact O|]. eapply seamless_proper; [|exact I1]. cbn [ql]. ring.
      * intros x [Hx|Hx]; [subst x; exact Le|apply I2; exact Hx].
      * cbn [sum_of ql]. rewrite I3. reflexivity.
      * constructor; [|exact I4]. unfold same_thing. rewrite W.
        split; [|split]; reflexivity.
Qed.

(** A voice as it comes from its layer. *)
Definition from_layer (v : voice) : Prop := lengths_ok v /\ seamless 0 v.

(** Every voice, once read, has the same things in the same order, its measure rests as long
    as the measure, each thing beginning where the one before ends; and after them, if it is
    shorter than the measure, hidden rests up to the end of the measure. *)
Theorem C151_voice : forall target v, from_layer v -> (0 <= target)%Q ->
  exists v' more, fill target (correct target 0 v) = v' ++ more
    /\ Forall2 (same_thing target) v v'
    /\ Forall fresh more
    /\ seamless 0 (v' ++ more)
    /\ ((sum_with target v < target)%Q -> (sum_of (v' ++ more) == target)%Q)
    /\ ((target <= sum_with target v)%Q ->
        more = [] /\ (sum_of (v' ++ more) == sum_with target v)%Q).
Proof.
  intros target v [L S] P.
  destruct (correct_spec target v 0 0 P L S) as [C1 [C2 [C3 C4]]].
  assert (C1' : seamless 0 (correct target 0 v)).
  { eapply seamless_proper; [|exact C1]. ring. }
  unfold fill. destruct (Qle_bool target (voice_length (correct target 0 v))) eqn:E.
  - exists (correct target 0 v), []. rewrite app_nil_r.
    apply Qle_bool_iff in E. rewrite (voice_length_sum _ C2 C1') in E.
    split; [reflexivity|]. split; [exact C4|]. split; [constructor|]. split; [exact C1'|].
    split; [intros K; rewrite C3 in E; lra|]. intros _. split; [reflexivity|exact C3].
  - apply Qle_bool_false in E.
    assert (E' := E). rewrite (voice_length_sum _ C2 C1') in E'.
    destruct (pad_spec (correct target 0 v) (target - voice_length (correct target 0 v)) C2 C1')
      as [P1 [P2 [P3 [more [P4 P5]]]]]; [lra|].
    exists (correct target 0 v), more. rewrite <- P4.
    split; [reflexivity|]. split; [exact C4|]. split; [exact P5|]. split; [exact P1|].
    split.
    + intros _. rewrite P3, (voice_length_sum _ C2 C1'). ring.
    + intros K. exfalso. rewrite C3 in E'. lra.
Qed.
Print Assumptions C151_voice.

Lemma fold_max_ge : forall (A : Type) (f : A -> Q) l m,
  (m <= fold_left (fun m x => qmax m (f x)) l m)%Q
  /\ forall x, In x l -> (f x <= fold_left (fun m x => qmax m (f x)) l m)%Q.
Proof.
  intros A f. induction l as [|x l IH]; intros m; cbn [fold_left].
  - split; [lra|]. intros x [].
  - destruct (IH (qmax m (f x))) as [I1 I2]. pose proof (qmax_le_l m (f x)).
    pose proof (qmax_le_r m (f x)). split; [lra|].
    intros y [Hy|Hy]; [subst y; lra|apply I2; exact Hy].
Qed.

Lemma fold_max_is : forall (A : Type) (f : A -> Q) l m,
  fold_left (fun m x => qmax m (f x)) l m = m
  \/ exists x, In x l /\ fold_left (fun m x => qmax m (f x)) l m = f x.
Proof.
  intros A f. induction l as [|x l IH]; intros m; cbn [fold_left]; [left; reflexivity|].
  destruct (IH (qmax m (f x))) as [E|[y [Y1 Y2]]].
  - destruct (qmax_case m (f x)) as [C|C]; rewrite C in E at 2.
    + left. exact E.
    + right. exists x. split; [left; reflexivity|exact E].
  - right. exists y. split; [right; exact Y1|exact Y2].
Qed.

(** The length of the measure: that of the longest voice of the file, if there is one that is
    not empty and not just a measure rest, and else what the meter says, or four quarters. *)
Definition is_length (bar : option Q) (staves : list (str * list voice)) (t : Q) : Prop :=
  let all := flat_map snd staves in
  ((exists v, In v all /\ ~ (sum_of v == 0)%Q /\ ~ (sum_of v == placeHolder)%Q
     /\ (t == sum_of v)%Q) /\ (forall v, In v all -> (sum_of v <= t)%Q))
  \/ ((forall v, In v all -> (sum_of v <= placeHolder)%Q)
      /\ t = match bar with Some b => b | None => 4%Q end).

Theorem C151_length : forall bar staves,
  (forall s v, In s staves -> In v (snd s) -> from_layer v) ->
  (** no voice is shorter than the place holder, unless empty *)
  (forall s v, In s staves -> In v (snd s) ->
     (sum_of v == 0)%Q \/ (placeHolder <= sum_of v)%Q) ->
  is_length bar staves (expected bar staves).
Proof.
  intros bar staves FL SH. unfold expected, is_length. cbv zeta.
  set (longest := fold_left (fun m s => qmax m (staff_length (snd s))) staves 0%Q).
  assert (G : forall v, In v (flat_map snd staves) -> (sum_of v <= longest)%Q).
  { intros v Hv. apply in_flat_map in Hv as [s [S1 S2]].
    destruct (FL s v S1 S2) as [L S]. rewrite <- (voice_length_sum v L S).
    destruct (fold_max_ge _ (fun s : str * list voice => staff_length (snd s)) staves 0%Q) as [_ H].
    destruct (fold_max_ge _ voice_length (snd s) 0%Q) as [_ K].
    pose proof (H s S1). pose proof (K v S2). unfold longest. unfold staff_length in *. lra. }
  assert (W : longest = 0%Q \/ exists v, In v (flat_map snd staves) /\ (longest == sum_of v)%Q).
  { destruct (fold_max_is _ (fun s : str * list voice => staff_length (snd s)) staves 0%Q)
      as [E|[s [S1 S2]]]; [left; exact E|].
    destruct (fold_max_is _ voice_length (snd s) 0%Q) as [E|[v [V1 V2]]].
    - left. unfold longest. rewrite S2. exact E.
    - right. exists v. split; [apply in_flat_map; exists s; split; assumption|].
      destruct (FL s v S1 V1) as [L S]. rewrite <- (voice_length_sum v L S).
      unfold longest. rewrite S2. unfold staff_length. rewrite V2. reflexivity. }
  destruct (Qeq_bool longest 0) eqn:Z; [|destruct (Qeq_bool longest placeHolder) eqn:H];
    cbn [negb andb].
  - apply Qeq_bool_iff in Z. right. split; [|reflexivity].
    intros v Hv. pose proof (G v Hv). unfold placeHolder in *. lra.
  - apply Qeq_bool_iff in H. right. split; [|reflexivity].
    intros v Hv. pose proof (G v Hv). lra.
  - apply Qeq_bool_neq in Z, H. left. split; [|exact G].
    destruct W as [W|[v [V1 V2]]]; [rewrite W in Z; contradiction Z; reflexivity|].
    exists v. split; [exact V1|]. rewrite <- V2. split; [exact Z|]. split; [exact H|reflexivity].
Qed.
Print Assumptions C151_length.

(** A voice with measure rests has exactly one, and besides only things without length. *)
Definition lone_rest (v : voice) : Prop :=
  (forall e, In e v -> wasMRest e = false)
  \/ (exists a e b, v = a ++ e :: b /\ wasMRest e = true
        /\ forall x, In x a \/ In x b -> wasMRest x = false /\ (ql x == 0)%Q).

Lemma sum_with_none : forall t v, (forall e, In e v -> wasMRest e = false) ->
  (sum_with t v == sum_of v)%Q.
Proof.
  intros t. induction v as [|e v IH]; intros H; cbn [sum_with sum_of]; [reflexivity|].
  rewrite (H e (or_introl eq_refl)), IH; [reflexivity|]. intros x Hx. apply H. right. exact Hx.
Qed.

Lemma sum_with_zero : forall t v, (forall x, In x v -> wasMRest x = false /\ (ql x == 0)%Q) ->
  (sum_with t v == 0)%Q.
Proof.
  intros t. induction v as [|e v IH]; intros H; cbn [sum_with]; [reflexivity|].
  destruct (H e (or_introl eq_refl)) as [H1 H2]. rewrite H1, H2, IH; [reflexivity|].
  intros x Hx. apply H. right. exact Hx.
Qed.

Lemma sum_with_app : forall t a b, (sum_with t (a ++ b) == sum_with t a + sum_with t b)%Q.
Proof.
  intros t. induction a as [|e a IH]; intros b; cbn [app sum_with]; [ring|]. rewrite IH. ring.
Qed.

Lemma add_staves : forall target ns staves s,
  In s (fold_left (add_staff target) ns staves) <->
  In s staves \/ (exists n, In n ns /\ (forall s', In s' staves -> fst s' <> n)
                            /\ s = (n, [pad [] target])).
Proof.
  intros target. induction ns as [|n ns IH]; intros staves s; cbn [fold_left].
  - split; [intros H; left; exact H|]. intros [H|[n [[] _]]]. exact H.
  - rewrite IH. unfold add_staff. destruct (existsb (fun s => str_eqb (fst s) n) staves) eqn:E.
    + split.
      * intros [H|[m [M1 M2]]]; [left; exact H|]. right. exists m.
        split; [right; exact M1|exact M2].
      * intros [H|[m [[M1|M1] [M2 M3]]]]; [left; exact H| |].
        -- subst m. apply existsb_exists in E as [s' [S1 S2]]. apply str_eqb_eq in S2.
           contradiction (M2 s' S1 S2).
        -- right. exists m. split; [exact M1|]. split; assumption.
    + assert (N : forall s', In s' staves -> fst s' <> n).
      { intros s' H K. assert (X : existsb (fun s => str_eqb (fst s) n) staves = true).
        { apply existsb_exists. exists s'. split; [exact H|]. apply str_eqb_eq. exact K. }
        congruence. }
      split.
      * intros [H|[m [M1 [M2 M3]]]].
        -- apply in_app_or in H as [H|[H|[]]]; [left; exact H|]. right. exists n.
           split; [left; reflexivity|]. split; [exact N|symmetry; exact H].
        -- right. exists m. split; [right; exact M1|]. split; [|exact M3].
           intros s' H. apply M2. apply in_or_app. left. exact H.
      * intros [H|[m [[M1|M1] [M2 M3]]]].
        -- left. apply in_or_app. left. exact H.
        -- subst m. left. apply in_or_app. right. left. symmetry. exact M3.
        -- destruct (str_eqb n m) eqn:F.
           ++ apply str_eqb_eq in F. subst m. left. apply in_or_app. right. left.
              symmetry. exact M3.
           ++ apply str_eqb_neq in F. right. exists m. split; [exact M1|]. split; [|exact M3].
              intros s' H. apply in_app_or in H as [H|[H|[]]]; [apply M2; exact H|].
              subst s'. exact F.
Qed.

(** C151: if the measure rests without length of their own stand alone in their voices, then
    all voices of all staves of the file and of all parts without a staff in this measure fill
    the measure without gaps, from its beginning to its end. *)
Theorem C151_filled_partial : forall bar ns staves,
  (forall b, bar = Some b -> (placeHolder <= b)%Q) ->
  (forall s v, In s staves -> In v (snd s) -> from_layer v /\ lone_rest v) ->
  (forall n, In n ns -> exists s, In s (fill_measure bar ns staves) /\ fst s = n)
  /\ (forall s v, In s (fill_measure bar ns staves) -> In v (snd s) ->
        seamless 0 v /\ (sum_of v == expected bar staves)%Q).
Proof.
  intros bar ns staves B FL. unfold fill_measure. cbv zeta.
  set (t := expected bar staves).
  assert (T : (0 < t)%Q /\ forall s v, In s staves -> In v (snd s) ->
                (forall e, In e v -> wasMRest e = false) -> (sum_of v <= t)%Q).
  { unfold t, expected. cbv zeta.
    set (longest := fold_left (fun m s => qmax m (staff_length (snd s))) staves 0%Q).
    assert (G : forall s v, In s staves -> In v (snd s) -> (sum_of v <= longest)%Q).
    { intros s v S1 S2. destruct (FL s v S1 S2) as [[L S] _].
      rewrite <- (voice_length_sum v L S).
      destruct (fold_max_ge _ (fun s : str * list voice => staff_length (snd s)) staves 0%Q) as [_ H].
      destruct (fold_max_ge _ voice_length (snd s) 0%Q) as [_ K].
      pose proof (H s S1). pose proof (K v S2). unfold longest. unfold staff_length in *. lra. }
    assert (G0 : (0 <= longest)%Q).
    { destruct (fold_max_ge _ (fun s : str * list voice => staff_length (snd s)) staves 0%Q) as [H _].
      exact H. }
    assert (X : (longest <= placeHolder)%Q ->
                (0 < match bar with Some b => b | None => 4 end)%Q
                /\ forall s v, In s staves -> In v (snd s) ->
                    (forall e, In e v -> wasMRest e = false) ->
                    (sum_of v <= match bar with Some b => b | None => 4 end)%Q).
    { intros X. destruct bar as [b|].
      - pose proof (B b eq_refl). split; [unfold placeHolder in *; lra|].
        intros s v S1 S2 _. pose proof (G s v S1 S2). lra.
      - split; [reflexivity|]. intros s v S1 S2 _. pose proof (G s v S1 S2).
        unfold placeHolder in X. lra. }
    destruct (Qeq_bool longest 0) eqn:Z; [|destruct (Qeq_bool longest placeHolder) eqn:H];
      cbn [negb andb].
    - apply Qeq_bool_iff in Z. apply X. unfold placeHolder. lra.
    - apply Qeq_bool_iff in H. apply X. lra.
    - apply Qeq_bool_neq in Z. split; [lra|]. intros s v S1 S2 _. apply (G s v S1 S2). }
  destruct T as [T1 T2].
  assert (P0 : seamless 0 (pad [] t) /\ lengths_ok (pad [] t) /\ (sum_of (pad [] t) == t)%Q
               /\ forall e, In e (pad [] t) -> wasMRest e = false).
  { destruct (pad_spec [] t) as [P1 [P2 [P3 [more [P4 P5]]]]];
      [intros e []|exact I|exact T1|].
    split; [exact P1|]. split; [exact P2|]. split; [rewrite P3; cbn [sum_of]; ring|].
    rewrite P4. cbn [app]. intros e He. rewrite Forall_forall in P5. apply P5. exact He. }
  split.
  - intros n Hn.
    destruct (existsb (fun s => str_eqb (fst s) n) staves) eqn:E.
    + apply existsb_exists in E as [s [S1 S2]]. apply str_eqb_eq in S2.
      eexists. split; [apply in_map; apply add_staves; left; exact S1|]. exact S2.
    + eexists. split.
      * apply in_map. apply add_staves. right. exists n. split; [exact Hn|]. split; [|reflexivity].
        intros s' H K. assert (X : existsb (fun s => str_eqb (fst s) n) staves = true).
        { apply existsb_exists. exists s'. split; [exact H|]. apply str_eqb_eq. exact K. }
        congruence.
      * reflexivity.
  - intros s v Hs Hv. apply in_map_iff in Hs as [s0 [E Hs]]. subst s. cbn [snd] in Hv.
    apply in_map_iff in Hv as [v0 [E Hv]]. subst v.
    assert (K : from_layer v0 /\ (sum_with t v0 <= t)%Q).
    { apply add_staves in Hs as [Hs|[n [_ [_ Hs]]]].
      - destruct (FL s0 v0 Hs Hv) as [F [R|[a [e [b [R1 [R2 R3]]]]]]]; split; try exact F.
        + rewrite sum_with_none by exact R. apply (T2 s0 v0 Hs Hv R).
        + subst v0. rewrite sum_with_app. cbn [sum_with]. rewrite R2.
          rewrite (sum_with_zero t a), (sum_with_zero t b); [lra| |];
            intros x Hx; apply R3; tauto.
      - subst s0. cbn [snd] in Hv. destruct Hv as [Hv|[]]. subst v0.
        destruct P0 as [P1 [P2 [P3 P4]]]. split; [split; assumption|].
        rewrite sum_with_none by exact P4. rewrite P3. lra. }
    destruct K as [F K].
    destruct (C151_voice t v0 F (Qlt_le_weak _ _ T1)) as [v' [more [E [_ [_ [S [S1 S2]]]]]]].
    rewrite E. split; [exact S|].
    destruct (Qlt_le_dec (sum_with t v0) t) as [D|D]; [apply S1; exact D|].
    destruct (S2 D) as [_ S3]. rewrite S3. lra.
Qed.
Print Assumptions C151_filled_partial.

Definition u1 : str := S_ "1".
Definition u2 : str := S_ "2".
Definition u3 : str := S_ "3".
(** A note of a given length, something without length, and a measure rest. *)
Definition nt (o q : Q) (k : nat) : ev := mkEv o q false false k.
Definition mr (o : Q) (k : nat) : ev := mkEv o placeHolder true false k.

Definition m1 : list (str * list voice) :=
  [(u1, [[nt 0 1 1; nt 1 (1 # 2) 2]; [nt 0 (1 # 4) 3]]);
   (u2, [[mr 0 4; nt placeHolder 0 5]])].

Example C151_nonvacuous :
  (forall s v, In s m1 -> In v (snd s) -> from_layer v /\ lone_rest v)
  /\ (expected (Some 3%Q) m1 == 3 # 2)%Q
  /\ map (fun s => (fst s, map (map (fun e => (Qred (offset e), Qred (ql e), added e))) (snd s)))
         (fill_measure (Some 3%Q) [u1; u2; u3] m1)
     = [(u1, [[(0%Q, 1%Q, false); (1%Q, (1 # 2)%Q, false)];
              [(0%Q, (1 # 4)%Q, false); ((1 # 4)%Q, 1%Q, true); ((5 # 4)%Q, (1 # 4)%Q, true)]]);
        (u2, [[(0%Q, (3 # 2)%Q, false); ((3 # 2)%Q, 0%Q, false)]]);
        (u3, [[(0%Q, (3 # 2)%Q, true)]])].
Proof.
  split; [|split; vm_compute; reflexivity].
  intros s v Hs Hv. destruct Hs as [Hs|[Hs|[]]]; subst s; cbn [snd] in Hv;
    repeat (destruct Hv as [Hv|Hv]; [subst v|]); try destruct Hv.
  - split; [split|].
    + intros e [H|[H|[]]]; subst e; vm_compute; discriminate.
    + split; [reflexivity|]. split; [reflexivity|exact I].
    + left. intros e [H|[H|[]]]; subst e; reflexivity.
  - split; [split|].
    + intros e [H|[]]; subst e; vm_compute; discriminate.
    + split; [reflexivity|exact I].
    + left. intros e [H|[]]; subst e; reflexivity.
  - split; [split|].
    + intros e [H|[H|[]]]; subst e; vm_compute; discriminate.
    + split; [reflexivity|]. split; [reflexivity|exact I].
    + right. exists [], (mr 0 4), [nt placeHolder 0 5]. split; [reflexivity|].
      split; [reflexivity|]. intros x [[]|[H|[]]]; subst x. split; reflexivity.
Qed.

(** A measure rest beside a note makes its voice longer than the measure. *)
Theorem C151_rest_and_note_refuted : exists bar ns staves s v,
  In s (fill_measure bar ns staves) /\ In v (snd s)
  /\ (expected bar staves == 4)%Q /\ (sum_of v == 5)%Q.
Proof.
  exists (Some 4%Q), [u1], [(u1, [[mr 0 1; nt placeHolder 1 2]; [nt 0 4 3]])].
  eexists. eexists. split; [left; reflexivity|]. split; [left; reflexivity|].
  split; vm_compute; reflexivity.
Qed.
Print Assumptions C151_rest_and_note_refuted.
