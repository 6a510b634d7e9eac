(** C162: in exported Humdrum files a note is followed by null tokens for just as long as it
    lasts.  C163: invisible rests that fill holes. *)
From Coq Require Import List Arith ZArith Lia Bool.
From Verif Require Import NullTokModel.
Import ListNotations.
Local Open Scope Z_scope.

(** ** What is relied on *)
(** The slices are in the order of time, and only slices of notes take time. *)
Fixpoint steady (l : list cell) : Prop :=
  match l with
  | a :: ((b :: _) as r) => c_ts a <= c_ts b /\ (c_kind a <> KNotes -> c_ts a = c_ts b) /\ steady r
  | _ => True
  end.
(** A note (or rest) of duration [d] in a slice of notes. *)
Definition note_at (l : list cell) (i : nat) (a : cell) (d : Z) : Prop :=
  nth_error l i = Some a /\ c_kind a = KNotes /\ c_tok a = Some (TTok d).
(** Two notes of the voice overlap. *)
Definition overlap (l : list cell) : Prop :=
  exists i k a b d d', (i < k)%nat /\ note_at l i a d /\ note_at l k b d' /\ c_ts b < c_ts a + d.
(** A note that starts before slice [k] is still sounding there. *)
Definition sounding (l : list cell) (k : nat) (t : Z) : Prop :=
  exists i a d, (i < k)%nat /\ note_at l i a d /\ t < c_ts a + d.

(** ** Lemmas *)
Definition shape (c : cell) : kind * Z * option tok := (c_kind c, c_ts c, c_tok c).
Definition covered (e : Z) (c : cell) : kind * Z * option tok :=
  (c_kind c, c_ts c,
   match c_tok c, c_kind c with
   | None, KNotes | None, KOther => if c_ts c <? e then Some TNull else None
   | t, _ => t
   end).
Definition clash (e : Z) (l : list cell) : Prop :=
  exists c d, In c l /\ c_kind c = KNotes /\ c_tok c = Some (TTok d) /\ c_ts c < e.

Lemma steady_tail : forall c r, steady (c :: r) -> steady r.
Proof. intros c [|b r] H; [exact Logic.I|]. apply H. Qed.
Lemma steady_le : forall r c x, steady (c :: r) -> In x r -> c_ts c <= c_ts x.
Proof.
  induction r as [|b r IH]; intros c x H Hx; [destruct Hx|].
  destruct H as (H1 & _ & H2). destruct Hx as [<-|Hx]; [exact H1|]. specialize (IH b x H2 Hx). lia.
Qed.
Lemma steady_shape : forall l l', map shape l' = map shape l -> steady l -> steady l'.
Proof.
  induction l as [|a l IH]; intros l' E H; destruct l' as [|a' l']; try discriminate; [exact Logic.I|].
  injection E as E1 E2 E3 E. destruct l as [|b l]; destruct l' as [|b' l']; try discriminate; [exact Logic.I|].
  pose proof (IH (b' :: l') E (steady_tail _ _ H)) as K. injection E as F1 F2 F3 _.
  destruct H as (H1 & H2 & _). split; [congruence|]. split; [|exact K]. rewrite E1, E2, F2. exact H2.
Qed.
Lemma covered_id : forall e c, e <= c_ts c -> covered e c = shape c.
Proof.
  intros e c H. unfold covered, shape. replace (c_ts c <? e) with false by (symmetry; apply Z.ltb_ge; lia).
  destruct (c_tok c), (c_kind c); reflexivity.
Qed.
Lemma nothing_left : forall e c r, steady (c :: r) -> e <= c_ts c ->
  map (covered e) (c :: r) = map shape (c :: r) /\ ~ clash e (c :: r).
Proof.
  intros e c r H L.
  assert (A : forall x, In x (c :: r) -> e <= c_ts x).
  { intros x [<-|Hx]; [exact L|]. pose proof (steady_le r c x H Hx). lia. }
  split.
  - apply map_ext_in. intros x Hx. apply covered_id. apply A. exact Hx.
  - intros (x & d & Hx & _ & _ & K). specialize (A x Hx). lia.
Qed.
Lemma unspined_fill : forall l last n left, existsb spined l = false ->
  exists l', fill last n left l = Some l' /\ map shape l' = map shape l.
Proof.
  induction l as [|c r IH]; intros last n left H; [exists []; split; reflexivity|].
  cbn [existsb] in H. apply orb_false_iff in H as [H1 H2]. cbn [fill]. cbv zeta.
  set (c1 := match last with Some d => match r with [] => set_dur d c | _ :: _ => c end | None => c end).
  assert (S1 : shape c1 = shape c) by (unfold c1; destruct last; [destruct r|]; reflexivity).
  destruct (left <=? 0).
  - exists (c1 :: r). split; [reflexivity|]. cbn. rewrite S1. reflexivity.
  - assert (K : c_kind c1 = KNoSpine).
    { injection S1 as -> _ _. unfold spined in H1. destruct (c_kind c); congruence. }
    rewrite K. destruct (IH None n left H2) as (r' & E & M). rewrite E. exists (c1 :: r').
    split; [reflexivity|]. cbn. rewrite S1, M. reflexivity.
Qed.
Lemma unspined_covered : forall l e, existsb spined l = false ->
  map (covered e) l = map shape l /\ ~ clash e l.
Proof.
  induction l as [|c r IH]; intros e H; [split; [reflexivity|intros (x & d & [] & _)]|].
  cbn [existsb] in H. apply orb_false_iff in H as [H1 H2]. destruct (IH e H2) as [I1 I2].
  unfold spined in H1. split.
  - cbn [map]. rewrite I1. f_equal. unfold covered, shape. destruct (c_kind c); try discriminate.
    destruct (c_tok c); reflexivity.
  - intros (x & d & [<-|Hx] & K & T & L); [rewrite K in H1; discriminate|]. apply I2. exists x, d. auto.
Qed.
Lemma first_spined : forall r c x, steady (c :: r) -> find spined r = Some x ->
  c_kind c <> KNotes -> c_ts x = c_ts c.
Proof.
  induction r as [|b r IH]; intros c x H F N; [discriminate|].
  destruct H as (_ & H1 & H2). rewrite (H1 N). cbn [find] in F. destruct (spined b) eqn:E.
  - injection F as <-. reflexivity.
  - apply IH; [exact H2|exact F|]. unfold spined in E. intro K. rewrite K in E. discriminate.
Qed.
Lemma next_head : forall c r b r', steady (c :: r) -> r = b :: r' -> existsb spined r = true ->
  forall cur, next_time cur c r = c_ts b.
Proof.
  intros c r b r' H -> E cur. unfold next_time. cbn [find]. destruct (spined b) eqn:Eb; [reflexivity|].
  cbn [existsb] in E. rewrite Eb in E. cbn in E.
  destruct (find spined r') as [x|] eqn:F.
  - apply (first_spined r'); [apply (steady_tail _ _ H)|exact F|]. unfold spined in Eb. intro K. rewrite K in Eb. discriminate.
  - exfalso. apply existsb_exists in E as (x & Hx & E). apply (find_none _ _ F) in Hx. congruence.
Qed.

Lemma clash_cons : forall e c r, clash e (c :: r) <->
  ((exists d, c_kind c = KNotes /\ c_tok c = Some (TTok d) /\ c_ts c < e) \/ clash e r).
Proof.
  intros e c r. split.
  - intros (x & d & [<-|Hx] & K & T & L); [left; exists d; auto|right; exists x, d; auto].
  - intros [(d & K & T & L)|(x & d & Hx & K & T & L)]; [exists c, d|exists x, d]; cbn; auto.
Qed.

Lemma fill_ok : forall l last next left e, steady l ->
  (forall c r, l = c :: r -> existsb spined l = true -> next = c_ts c /\ left = e - next) ->
  match fill last next left l with
  | Some l' => map shape l' = map (covered e) l /\ ~ clash e l
  | None => clash e l
  end.
Proof.
  induction l as [|c r IH]; intros last next left e H Hn.
  { split; [reflexivity|]. intros (x & d & [] & _). }
  destruct (existsb spined (c :: r)) eqn:Es.
  2: { destruct (unspined_fill (c :: r) last next left Es) as (l' & -> & M).
       destruct (unspined_covered (c :: r) e Es) as [C1 C2]. rewrite M, C1. split; [reflexivity|exact C2]. }
  destruct (Hn c r eq_refl eq_refl) as [En El]. subst next. subst left.
  cbn [fill]. cbv zeta.
  set (c1 := match last with Some d => match r with [] => set_dur d c | _ :: _ => c end | None => c end).
  assert (S1 : shape c1 = shape c) by (unfold c1; destruct last; [destruct r|]; reflexivity).
  pose proof S1 as S1'. injection S1' as K1 T1 O1.
  destruct (Z.leb_spec (e - c_ts c) 0) as [L|L].
  { destruct (nothing_left e c r H ltac:(lia)) as [C1 C2]. split; [|exact C2]. rewrite C1. cbn. rewrite S1. reflexivity. }
  assert (Hr : steady r) by exact (steady_tail _ _ H).
  assert (Lt : (c_ts c <? e) = true) by (apply Z.ltb_lt; lia).
  assert (NX : forall b r', r = b :: r' -> existsb spined r = true -> next_time (c_ts c) c1 r = c_ts b).
  { intros b r' E Es'. apply (next_head c1 r b r'); [|exact E|exact Es'].
    apply (steady_shape (c :: r)); [cbn; rewrite S1; reflexivity|exact H]. }
  assert (GO : forall c' left' last', shape c' = covered e c ->
    (forall b r', r = b :: r' -> existsb spined r = true -> left' = e - c_ts b) ->
    ~ (exists d, c_kind c = KNotes /\ c_tok c = Some (TTok d) /\ c_ts c < e) ->
    match match fill last' (next_time (c_ts c) c1 r) left' r with Some r' => Some (c' :: r') | None => None end with
    | Some l' => map shape l' = map (covered e) (c :: r) /\ ~ clash e (c :: r)
    | None => clash e (c :: r)
    end).
  { intros c' left' last' Sc Hl Nc.
    specialize (IH last' (next_time (c_ts c) c1 r) left' e Hr).
    assert (P : forall x y, r = x :: y -> existsb spined r = true ->
              next_time (c_ts c) c1 r = c_ts x /\ left' = e - next_time (c_ts c) c1 r).
    { intros x y E Ex. rewrite (NX x y E Ex). split; [reflexivity|]. exact (Hl x y E Ex). }
    specialize (IH P). destruct (fill last' (next_time (c_ts c) c1 r) left' r) as [r'|].
    - destruct IH as [I1 I2]. split; [cbn; rewrite Sc, I1; reflexivity|].
      rewrite clash_cons. tauto.
    - rewrite clash_cons. tauto. }
  assert (SAME : c_kind c <> KNotes -> forall b r', r = b :: r' -> existsb spined r = true ->
    e - c_ts c = e - c_ts b).
  { intros N b r' E _. subst r. destruct H as (_ & H & _). rewrite (H N). reflexivity. }
  rewrite K1. destruct (c_kind c) eqn:K.
  - (* notes *)
    rewrite O1. destruct (c_tok c) as [[|d]|] eqn:T.
    + apply GO.
      * unfold covered, shape. cbn. rewrite K1, T1, T, K. reflexivity.
      * intros b r' E Ex. rewrite (NX b r' E Ex). lia.
      * intros (d & _ & X & _). congruence.
    + apply clash_cons. left. exists d. split; [exact K|]. split; [exact T|lia].
    + apply GO.
      * unfold covered, shape. cbn. rewrite K1, T1, T, K, Lt. reflexivity.
      * intros b r' E Ex. rewrite (NX b r' E Ex). lia.
      * intros (d & _ & X & _). congruence.
  - (* grace *)
    apply GO.
    + unfold covered, shape. cbn. rewrite K1, T1, O1, K. destruct (c_tok c); reflexivity.
    + apply SAME. discriminate.
    + intros (d & X & _). discriminate.
  - (* other *)
    apply GO.
    + unfold covered. rewrite O1. destruct (c_tok c) eqn:T.
      * rewrite S1. unfold shape. rewrite T, K. reflexivity.
      * unfold shape. cbn. rewrite K1, T1, K, Lt. reflexivity.
    + apply SAME. discriminate.
    + intros (d & X & _). discriminate.
  - (* no spines *)
    specialize (IH None (c_ts c) (e - c_ts c) e Hr).
    assert (P : forall x y, r = x :: y -> existsb spined r = true -> c_ts c = c_ts x /\ e - c_ts c = e - c_ts c).
    { intros x y E _. subst r. destruct H as (_ & H & _). split; [apply H; rewrite K; discriminate|reflexivity]. }
    specialize (IH P). destruct (fill None (c_ts c) (e - c_ts c) r) as [r'|].
    + destruct IH as [I1 I2]. split.
      * cbn. rewrite I1, S1. f_equal. unfold covered, shape. rewrite K. destruct (c_tok c); reflexivity.
      * rewrite clash_cons. intros [(d & X & _)|X]; [congruence|contradiction].
    + rewrite clash_cons. right. exact IH.
Qed.

Lemma extend_ok : forall c r d, steady (c :: r) -> c_kind c = KNotes -> c_tok c = Some (TTok d) ->
  match extend c r with
  | Some r' => map shape r' = map (covered (c_ts c + d)) r /\ ~ clash (c_ts c + d) r
  | None => clash (c_ts c + d) r
  end.
Proof.
  intros c r d H K T. unfold extend. rewrite K, T. destruct r as [|n r].
  { split; [reflexivity|]. intros (x & y & [] & _). }
  cbv zeta. pose proof (steady_tail _ _ H) as Hr. destruct H as (H1 & _ & _).
  destruct ((d =? 0) || (d - (c_ts n - c_ts c) <=? 0)) eqn:E.
  - destruct (nothing_left (c_ts c + d) n r Hr) as [C1 C2].
    { apply orb_true_iff in E as [E|E]; [apply Z.eqb_eq in E|apply Z.leb_le in E]; lia. }
    rewrite C1. split; [reflexivity|exact C2].
  - apply fill_ok; [exact Hr|]. intros c' r' E' _. injection E' as -> _. split; [reflexivity|]. lia.
Qed.
Lemma extend_other : forall c r, (forall d, ~ (c_kind c = KNotes /\ c_tok c = Some (TTok d))) -> extend c r = Some r.
Proof.
  intros c r H. unfold extend. destruct (c_kind c) eqn:K; try reflexivity.
  destruct (c_tok c) as [[|d]|] eqn:T; try reflexivity. destruct (H d). auto.
Qed.
Lemma covered_shape_keep : forall e c c', shape c' = covered e c ->
  c_kind c' = c_kind c /\ c_ts c' = c_ts c
  /\ (forall t, c_tok c = Some t -> c_tok c' = Some t)
  /\ (forall d, c_tok c' = Some (TTok d) -> c_tok c = Some (TTok d))
  /\ (c_tok c = None ->
       (c_tok c' = None \/ c_tok c' = Some TNull)
       /\ (c_tok c' = Some TNull <-> (c_kind c = KNotes \/ c_kind c = KOther) /\ c_ts c < e)).
Proof.
  intros e c c' H. injection H as K T O. split; [exact K|]. split; [exact T|]. rewrite O.
  split; [intros t ->; destruct (c_kind c); reflexivity|]. split.
  - intros d. destruct (c_tok c); [destruct (c_kind c); tauto|]. destruct (c_kind c); try discriminate; destruct (c_ts c <? e); discriminate.
  - intros ->. destruct (c_kind c); try (split; [left; reflexivity|]; split; [discriminate|intros [[X|X] _]; discriminate]);
      destruct (Z.ltb_spec (c_ts c) e) as [L|L]; (split; [auto|]); split; try discriminate; intro X; try reflexivity; auto; lia.
Qed.

Definition result_ok (l l' : list cell) : Prop :=
  List.length l' = List.length l /\
  forall k c c', nth_error l k = Some c -> nth_error l' k = Some c' ->
    c_kind c' = c_kind c /\ c_ts c' = c_ts c
    /\ (forall t, c_tok c = Some t -> c_tok c' = Some t)
    /\ (c_tok c = None ->
         (c_tok c' = None \/ c_tok c' = Some TNull)
         /\ (c_tok c' = Some TNull <-> (c_kind c = KNotes \/ c_kind c = KOther) /\ sounding l k (c_ts c))).

Lemma map_nth : forall (e : Z) r r', map shape r' = map (covered e) r ->
  List.length r' = List.length r /\
  forall k c, nth_error r k = Some c -> exists c', nth_error r' k = Some c' /\ shape c' = covered e c.
Proof.
  intros e. induction r as [|c r IH]; intros r' E; destruct r' as [|c' r']; try discriminate.
  - split; [reflexivity|]. intros [|k] x X; discriminate.
  - injection E as E1 E2 E3 E. destruct (IH r' E) as [I1 I2]. split; [cbn; lia|].
    intros [|k] x X; [|exact (I2 k x X)]. injection X as <-. exists c'. split; [reflexivity|].
    unfold shape, covered. rewrite E1, E2, E3. reflexivity.
Qed.

Lemma extend_all_ok : forall n l, (List.length l <= n)%nat -> steady l ->
  match extend_all n l with
  | Some l' => result_ok l l' /\ ~ overlap l
  | None => overlap l
  end.
Proof.
  induction n as [|n IH]; intros l Hn H.
  { destruct l; [|cbn in Hn; lia]. cbn. split.
    - split; [reflexivity|]. intros [|k] c c' X; discriminate.
    - intros (i & k & a & b & d & d' & _ & (X & _) & _). destruct i; discriminate. }
  destruct l as [|c r].
  { cbn. split.
    - split; [reflexivity|]. intros [|k] c c' X; discriminate.
    - intros (i & k & a & b & d & d' & _ & (X & _) & _). destruct i; discriminate. }
  cbn [extend_all]. pose proof (steady_tail _ _ H) as Hr. cbn [List.length] in Hn.
  assert (D : (exists d, c_kind c = KNotes /\ c_tok c = Some (TTok d))
              \/ forall d, ~ (c_kind c = KNotes /\ c_tok c = Some (TTok d))).
  { destruct (c_kind c) eqn:K; try (right; intros d [X _]; discriminate).
    destruct (c_tok c) as [[|d]|]; [right; intros d [_ X]; discriminate|left; exists d; auto|right; intros d [_ X]; discriminate]. }
  destruct D as [(d & K & T)|D].
  - pose proof (extend_ok c r d H K T) as X. destruct (extend c r) as [r1|].
    2: { destruct X as (b & d' & Hb & Kb & Tb & Lb). apply In_nth_error in Hb as [k Hk].
         exists 0%nat, (S k), c, b, d, d'. split; [lia|]. split; [split; [reflexivity|auto]|].
         split; [split; [exact Hk|auto]|exact Lb]. }
    destruct X as [M NC]. destruct (map_nth _ _ _ M) as [L1 N1].
    assert (BACK : forall k c1, nth_error r1 k = Some c1 -> exists c0, nth_error r k = Some c0 /\ shape c1 = covered (c_ts c + d) c0).
    { intros k c1 X. destruct (nth_error r k) as [c0|] eqn:E.
      - exists c0. split; [reflexivity|]. destruct (N1 k c0 E) as (c' & X' & Y). congruence.
      - apply nth_error_None in E. assert (k < List.length r1)%nat by (apply nth_error_Some; congruence). lia. }
    assert (NOTE : forall i a dd, note_at r1 i a dd -> exists a0, note_at r i a0 dd /\ c_ts a0 = c_ts a).
    { intros i a dd (X & Ka & Ta). destruct (BACK i a X) as (a0 & Y & Z0).
      destruct (covered_shape_keep _ _ _ Z0) as (Z1 & Z2 & _ & Z4 & _). exists a0.
      split; [|congruence]. split; [exact Y|]. split; [congruence|exact (Z4 dd Ta)]. }
    assert (NOTE' : forall i a dd, note_at r i a dd -> exists a1, note_at r1 i a1 dd /\ c_ts a1 = c_ts a).
    { intros i a dd (X & Ka & Ta). destruct (N1 i a X) as (a1 & Y & Z0).
      destruct (covered_shape_keep _ _ _ Z0) as (Z1 & Z2 & Z3 & _). exists a1.
      split; [|exact Z2]. split; [exact Y|]. split; [congruence|exact (Z3 _ Ta)]. }
    assert (H1 : steady r1).
    { clear - M Hr. revert r1 M. induction r as [|a r IH]; intros r1 M; destruct r1 as [|a1 r1]; try discriminate; [exact Logic.I|].
      injection M as E1 E2 _ M. destruct r as [|b r]; destruct r1 as [|b1 r1]; try discriminate; [exact Logic.I|].
      pose proof (IH (steady_tail _ _ Hr) (b1 :: r1) M) as S1. injection M as F1 F2 _ _.
      destruct Hr as (X & Y & _). split; [congruence|]. split; [rewrite E1, E2, F2; exact Y|exact S1]. }
    specialize (IH r1 ltac:(lia) H1). destruct (extend_all n r1) as [r2|].
    + destruct IH as [[L2 R2] NO]. split.
      * split; [cbn; lia|]. intros [|k] x x' X X'.
        { injection X as <-. injection X' as <-. split; [reflexivity|]. split; [reflexivity|]. split; [auto|].
          intro Tn. congruence. }
        cbn [nth_error] in X, X'. destruct (N1 k x X) as (x1 & Y & Z0).
        destruct (covered_shape_keep _ _ _ Z0) as (Z1 & Z2 & Z3 & Z4 & Z5).
        destruct (R2 k x1 x' Y X') as (W1 & W2 & W3 & W4).
        split; [congruence|]. split; [congruence|]. split; [intros t Ht; apply W3, Z3; exact Ht|].
        intro Tn. destruct (Z5 Tn) as [[V|V] V2].
        { destruct (W4 V) as [U1 U2]. split; [exact U1|]. rewrite U2, Z1, Z2.
          split.
          - intros [A (i & a & dd & Hi & Na & La)]. split; [exact A|].
            destruct (NOTE i a dd Na) as (a0 & Na0 & E0). exists (S i), a0, dd. split; [lia|].
            split; [exact Na0|]. rewrite E0. exact La.
          - intros [A (i & a & dd & Hi & Na & La)]. split; [exact A|]. destruct i as [|i].
            + destruct Na as (E & _ & Te). injection E as <-. rewrite T in Te. injection Te as <-.
              exfalso. assert (c_tok x1 = Some TNull) by (apply V2; auto). congruence.
            + destruct (NOTE' i a dd Na) as (a1 & Na1 & E1). exists i, a1, dd. split; [lia|].
              split; [exact Na1|]. rewrite E1. exact La. }
        { rewrite (W3 TNull V). split; [right; reflexivity|]. split; [|reflexivity]. intros _.
          apply V2 in V. destruct V as [A B]. split; [exact A|]. exists 0%nat, c, d. split; [lia|].
          split; [split; [reflexivity|auto]|exact B]. }
      * intros (i & k & a & b & da & db & Hik & Na & Nb & Lab). destruct k as [|k]; [lia|].
        destruct i as [|i].
        { destruct Na as (E & _ & Te). injection E as <-. rewrite T in Te. injection Te as <-.
          apply NC. destruct Nb as (E & Kb & Tb). exists b, db. split; [exact (nth_error_In r k E)|auto]. }
        { apply NO. destruct (NOTE' i a da Na) as (a1 & Na1 & Ea). destruct (NOTE' k b db Nb) as (b1 & Nb1 & Eb).
          exists i, k, a1, b1, da, db. split; [lia|]. split; [exact Na1|]. split; [exact Nb1|]. rewrite Ea, Eb. exact Lab. }
    + destruct IH as (i & k & a & b & da & db & Hik & Na & Nb & Lab).
      destruct (NOTE i a da Na) as (a1 & Na1 & Ea). destruct (NOTE k b db Nb) as (b1 & Nb1 & Eb).
      exists (S i), (S k), a1, b1, da, db. split; [lia|]. split; [exact Na1|]. split; [exact Nb1|]. rewrite Ea, Eb. exact Lab.
  - rewrite (extend_other c r D). specialize (IH r ltac:(lia) Hr). destruct (extend_all n r) as [r2|].
    + destruct IH as [[L2 R2] NO]. split.
      * split; [cbn; lia|]. intros [|k] x x' X X'.
        { injection X as <-. injection X' as <-. split; [reflexivity|]. split; [reflexivity|]. split; [auto|].
          intro Tn. split; [left; exact Tn|]. split; [congruence|]. intros [_ (i & a & dd & Hi & _)]. lia. }
        cbn [nth_error] in X, X'. destruct (R2 k x x' X X') as (W1 & W2 & W3 & W4).
        split; [exact W1|]. split; [exact W2|]. split; [exact W3|]. intro Tn. destruct (W4 Tn) as [U1 U2].
        split; [exact U1|]. rewrite U2. split.
        { intros [A (i & a & dd & Hi & Na & La)]. split; [exact A|]. exists (S i), a, dd. split; [lia|]. auto. }
        { intros [A (i & a & dd & Hi & Na & La)]. split; [exact A|]. destruct i as [|i].
          - destruct Na as (E & Ka & Ta). injection E as <-. destruct (D dd). auto.
          - exists i, a, dd. split; [lia|]. auto. }
      * intros (i & k & a & b & da & db & Hik & Na & Nb & Lab). destruct k as [|k]; [lia|].
        destruct i as [|i].
        { destruct Na as (E & Ka & Ta). injection E as <-. destruct (D da). auto. }
        { apply NO. exists i, k, a, b, da, db. split; [lia|]. auto. }
    + destruct IH as (i & k & a & b & da & db & Hik & Na & Nb & Lab).
      exists (S i), (S k), a, b, da, db. split; [lia|]. auto.
Qed.

(** ** C162 *)
(** If only slices of notes take time: the export goes on just if no two notes of the voice
    overlap. *)
Theorem C162_raises_partial : forall l, steady l -> (add_nulls l = None <-> overlap l).
Proof.
  intros l H. pose proof (extend_all_ok _ l (Nat.le_refl _) H) as K. unfold add_nulls.
  destruct (extend_all (List.length l) l) as [l'|]; split; intro X; try discriminate; try reflexivity; try exact K.
  destruct K as [_ K]. contradiction.
Qed.
Print Assumptions C162_raises_partial.
(** And then: no token is changed, no slice is lost or moved, and an empty place gets a null
    token just if a note that started before is still sounding; nothing is put among grace
    notes. *)
Theorem C162_nulls_partial : forall l l', steady l -> add_nulls l = Some l' ->
  List.length l' = List.length l /\
  forall k c, nth_error l k = Some c -> exists c', nth_error l' k = Some c'
    /\ c_kind c' = c_kind c /\ c_ts c' = c_ts c
    /\ (forall t, c_tok c = Some t -> c_tok c' = Some t)
    /\ (c_tok c = None ->
         c_tok c' = Some TNull /\ (c_kind c = KNotes \/ c_kind c = KOther) /\ sounding l k (c_ts c)
         \/ c_tok c' = None /\ ~ ((c_kind c = KNotes \/ c_kind c = KOther) /\ sounding l k (c_ts c))).
Proof.
  intros l l' H E. pose proof (extend_all_ok _ l (Nat.le_refl _) H) as K. unfold add_nulls in E. rewrite E in K.
  destruct K as [[L R] _]. split; [exact L|]. intros k c X.
  destruct (nth_error l' k) as [c'|] eqn:X'.
  2: { apply nth_error_None in X'. assert (k < List.length l)%nat by (apply nth_error_Some; congruence). lia. }
  exists c'. destruct (R k c c' X X') as (R1 & R2 & R3 & R4). split; [reflexivity|]. split; [exact R1|].
  split; [exact R2|]. split; [exact R3|]. intro Tn. destruct (R4 Tn) as [[V|V] W].
  - right. split; [exact V|]. intro A. apply W in A. congruence.
  - left. split; [exact V|]. apply W. exact V.
Qed.
Print Assumptions C162_nulls_partial.

Definition voice1 : list cell :=
  [Cell KNotes 0 1 (Some (TTok 2)); Cell KOther 1 0 None; Cell KNotes 1 1 None; Cell KNoSpine 2 0 None;
   Cell KGrace 2 0 None; Cell KNotes 2 2 (Some (TTok 1)); Cell KNotes 4 1 None].
Example C162_nulls_nonvacuous : steady voice1 /\ ~ overlap voice1 /\ exists l', add_nulls voice1 = Some l'
  /\ map c_tok l' = [Some (TTok 2); Some TNull; Some TNull; None; None; Some (TTok 1); None].
Proof.
  assert (S : steady voice1) by (cbn; repeat split; try lia; try congruence).
  split; [exact S|]. split.
  - rewrite <- (C162_raises_partial _ S). vm_compute. discriminate.
  - eexists. split; vm_compute; reflexivity.
Qed.

(** A change of clef in the middle of a note, where no note starts: the note is taken to last
    longer, so that the export ends with an exception although nothing overlaps. *)
Theorem C162_raises_refuted : exists l,
  (forall i a b, nth_error l i = Some a -> nth_error l (S i) = Some b -> c_ts a <= c_ts b)
  /\ ~ overlap l /\ add_nulls l = None.
Proof.
  exists [Cell KNotes 0 3 (Some (TTok 4)); Cell KOther 3 1 (Some (TTok 0)); Cell KNotes 4 4 (Some (TTok 4))].
  split; [|split; [|vm_compute; reflexivity]].
  - intros [|[|[|i]]] a b X Y; cbn in X, Y; try discriminate; try (injection X as <-; injection Y as <-; cbn; lia).
  - intros (i & k & a & b & d & d' & Hik & (Ea & Ka & Ta) & (Eb & Kb & Tb) & L).
    destruct k as [|[|[|k]]]; [lia| | |destruct k; discriminate]; destruct i as [|[|i]]; try lia;
      cbn in Ea, Eb; injection Ea as <-; injection Eb as <-; cbn in *; try discriminate; try lia.
    injection Ta as <-. lia.
Qed.
Print Assumptions C162_raises_refuted.

(** ** C163 *)
(** There is something in this place of the slice. *)
Definition filled (p s v : nat) (x : nslice) : bool := nth v (nth s (nth p (n_parts x) []) []) false.
(** The time up to the next slice that has something in this place. *)
Fixpoint free_time (p s v : nat) (later : list nslice) : Z :=
  match later with
  | [] => 0
  | x :: r => if filled p s v x then 0 else n_dur x + free_time p s v r
  end.
Lemma free_nonneg : forall p s v later, Forall (fun x => 0 <= n_dur x) later -> 0 <= free_time p s v later.
Proof.
  intros p s v later H. induction H as [|x r Hx H IH]; cbn; [lia|]. destruct (filled p s v x); lia.
Qed.

(** The rest in a hole lasts at least as long as its slice and does not go on into what
    follows in the voice, if the staff is the last of its part, or the part the last of the
    score, or every later slice that has something in this place has a further voice. *)
Theorem C163_rest_partial : forall p s v x later np ns,
  Forall (fun y => 0 <= n_dur y) later ->
  Forall (fun y => List.length (n_parts y) = np /\ List.length (nth p (n_parts y) []) = ns) later ->
  (p + 1 = np)%nat \/ (s + 1 = ns)%nat
  \/ Forall (fun y => filled p s v y = true -> (v + 1 < List.length (nth s (nth p (n_parts y) []) []))%nat) later ->
  n_dur x <= hole p s v x later <= n_dur x + free_time p s v later.
Proof.
  intros p s v x later np ns H0 HN H. unfold hole. generalize (n_dur x) as d. clear x.
  induction later as [|y r IH]; intro d; [cbn; lia|].
  inversion H0 as [|? ? Hy0 Hr0]; subst. pose proof (Forall_inv HN) as [Np Ns]. pose proof (Forall_inv_tail HN) as HNr.
  pose proof (free_nonneg p s v (y :: r) H0) as F.
  assert (Hr : (p + 1 = np)%nat \/ (s + 1 = ns)%nat
    \/ Forall (fun y => filled p s v y = true -> (v + 1 < List.length (nth s (nth p (n_parts y) []) []))%nat) r).
  { destruct H as [H|[H|H]]; [auto|auto|]. right. right. inversion H; assumption. }
  specialize (IH Hr0 HNr Hr). cbn [hole_time]. cbv zeta.
  assert (SAME : (p + 1 = np)%nat \/ (s + 1 = ns)%nat -> forall r' d, Forall
    (fun y => List.length (n_parts y) = np /\ List.length (nth p (n_parts y) []) = ns) r' -> hole_time p s v d r' = d).
  { clear. intros E r'. induction r' as [|z r' I]; intros d K; [reflexivity|]. pose proof (Forall_inv K) as [K1 K2]. pose proof (Forall_inv_tail K) as K'.
    cbn [hole_time]. cbv zeta. destruct E as [E|E].
    - replace (_ <=? p)%nat with true by (symmetry; apply Nat.leb_le; lia). apply I; exact K'.
    - destruct (_ <=? p)%nat; [apply I; exact K'|].
      replace (_ <=? s)%nat with true by (symmetry; apply Nat.leb_le; lia). apply I; exact K'. }
  destruct H as [H|[H|H]].
  - pose proof (SAME (or_introl H) (y :: r) d HN) as E. cbn [hole_time] in E. cbv zeta in E. rewrite E. lia.
  - pose proof (SAME (or_intror H) (y :: r) d HN) as E. cbn [hole_time] in E. cbv zeta in E. rewrite E. lia.
  - pose proof (Forall_inv H) as Hy. cbn beta in Hy. cbn [free_time] in F |- *.
    destruct (filled p s v y) eqn:Ef.
    + specialize (Hy eq_refl).
      assert (Hs : (s < List.length (nth p (n_parts y) []))%nat).
      { destruct (Nat.lt_ge_cases s (List.length (nth p (n_parts y) []))) as [K|K]; [exact K|].
        rewrite (nth_overflow (nth p (n_parts y) [])) in Hy by exact K. cbn in Hy. lia. }
      destruct (Nat.leb_spec (List.length (n_parts y) - 1) p) as [L|L].
      { destruct (Nat.lt_ge_cases p (List.length (n_parts y))) as [K|K].
        - assert (Ep : (p + 1 = np)%nat) by lia. rewrite (SAME (or_introl Ep) r d HNr). lia.
        - rewrite (nth_overflow (n_parts y)) in Hs by exact K. cbn in Hs. lia. }
      destruct (Nat.leb_spec (List.length (nth p (n_parts y) []) - 1) s) as [L'|L'].
      { assert (Ep : (s + 1 = ns)%nat) by lia. rewrite (SAME (or_intror Ep) r d HNr). lia. }
      destruct (Nat.leb_spec (List.length (nth s (nth p (n_parts y) []) []) - 1) v) as [L''|L'']; lia.
    + destruct (List.length (n_parts y) - 1 <=? p)%nat; [specialize (IH d); lia|].
      destruct (List.length (nth p (n_parts y) []) - 1 <=? s)%nat; [specialize (IH d); lia|].
      destruct (List.length (nth s (nth p (n_parts y) []) []) - 1 <=? v)%nat; [|pose proof (free_nonneg p s v r Hr0); lia].
      specialize (IH (d + n_dur y)). lia.
Qed.
Print Assumptions C163_rest_partial.
Example C163_rest_nonvacuous :
  let later := [NSlice 2 [[[]; [true]]; [[true]]]; NSlice 3 [[[true; true]; [true]]; [[true]]]] in
  hole 0 0 0 (NSlice 1 [[[false; true]; [true]]; [[true]]]) later = 3 /\ free_time 0 0 0 later = 2
  /\ Forall (fun y => filled 0 0 0 y = true -> (0 + 1 < List.length (nth 0 (nth 0 (n_parts y) []) []))%nat) later.
Proof.
  split; [reflexivity|]. split; [reflexivity|]. constructor; [discriminate|]. constructor; [cbn; lia|constructor].
Qed.

(** The rest in a hole lasts just as long as its slice if the part is the last of the score or
    the staff the last of its part. *)
Theorem C163_last : forall p s v x later,
  Forall (fun y => (List.length (n_parts y) <= p + 1)%nat \/ (List.length (nth p (n_parts y) []) <= s + 1)%nat) later ->
  hole p s v x later = n_dur x.
Proof.
  intros p s v x later H. unfold hole. induction H as [|y r Hy H IH]; [reflexivity|]. cbn [hole_time]. cbv zeta.
  destruct Hy as [Hy|Hy].
  - replace (_ <=? p)%nat with true by (symmetry; apply Nat.leb_le; lia). exact IH.
  - destruct (_ <=? p)%nat; [exact IH|]. replace (_ <=? s)%nat with true by (symmetry; apply Nat.leb_le; lia). exact IH.
Qed.
Print Assumptions C163_last.
Example C163_last_nonvacuous :
  hole 0 0 0 (NSlice 1 [[[false; true]]]) [NSlice 2 [[[false; true]]]; NSlice 3 [[[true]]]] = 1.
Proof. reflexivity. Qed.

(** In the upper staff of a part of two staves that is not the last part: the rest goes on
    through all that follows, if there is one voice only later. *)
Theorem C163_rest_refuted : exists p s v x later,
  filled p s v x = false /\ (exists y, hd_error later = Some y /\ filled p s v y = true)
  /\ free_time p s v later = 0 /\ n_dur x < hole p s v x later.
Proof.
  exists 0%nat, 0%nat, 0%nat, (NSlice 1 [[[false; true]; [true]]; [[true]]]), [NSlice 4 [[[true]; [true]]; [[true]]]].
  split; [reflexivity|]. split; [eexists; split; reflexivity|]. split; [reflexivity|]. reflexivity.
Qed.
Print Assumptions C163_rest_refuted.
