(** Elements of an MEI layer: sorting, and nesting of intervals by a stack. *)
From Verif Require Import PyStr LayerModel.
From Coq Require Import QArith Lqa Lia Permutation Sorted.
Local Close Scope Q_scope.

(** ** Sorting *)
Section sorting.
Context {A : Type}.
Variable before : A -> A -> bool.
Hypothesis total : forall x y, before x y = true \/ before y x = true.
Hypothesis trans : forall x y z, before x y = true -> before y z = true -> before x z = true.
Variable R : A -> A -> Prop.
Definition lex (x y : A) : Prop := before x y = true /\ (before y x = true -> R x y).

Lemma insert_perm x l : Permutation (insert before x l) (x :: l).
Proof.
  induction l as [|y l IH]; [reflexivity|]. cbn [insert]. destruct (before x y); [reflexivity|].
  transitivity (y :: x :: l); [constructor; exact IH|apply perm_swap].
Qed.
Lemma sort_perm l : Permutation (sort_by before l) l.
Proof. induction l as [|x l IH]; [reflexivity|]. unfold sort_by. cbn [fold_right]. rewrite insert_perm. constructor. exact IH. Qed.

Lemma insert_sorted x l : Forall (R x) l -> StronglySorted lex l -> StronglySorted lex (insert before x l).
Proof.
  intros F S. induction S as [|y l S IH G]; [repeat constructor|]. inversion F; subst. cbn [insert]. destruct (before x y) eqn:E.
  - constructor; [constructor; assumption|]. constructor; [split; [exact E|auto]|].
    apply Forall_forall. intros z Z. rewrite Forall_forall in G. destruct (G z Z) as [G1 _]. split; [eapply trans; eassumption|].
    intros _. rewrite Forall_forall in H2. auto.
  - constructor; [apply IH; assumption|]. apply Forall_forall. intros z Z. apply (Permutation_in _ (insert_perm x l)) in Z. destruct Z as [<-|Z].
    + split; [destruct (total x y); congruence|intros; congruence].
    + rewrite Forall_forall in G. auto.
Qed.
Lemma sort_sorted l : StronglySorted R l -> StronglySorted lex (sort_by before l).
Proof.
  induction 1 as [|x l S IH G]; [constructor|]. unfold sort_by. cbn [fold_right]. apply insert_sorted; [|exact IH].
  apply Forall_forall. intros y Y. rewrite Forall_forall in G. apply G. apply (Permutation_in _ (sort_perm l)). exact Y.
Qed.
End sorting.

Lemma always_sorted {A} (l : list A) : StronglySorted (fun _ _ => True) l.
Proof. induction l; constructor; auto. apply Forall_forall. auto. Qed.
Lemma sorted_weaken {A} (R R' : A -> A -> Prop) l : (forall x y, In x l -> In y l -> R x y -> R' x y) -> StronglySorted R l -> StronglySorted R' l.
Proof.
  intros H S. induction S as [|x l S IH G]; constructor.
  - apply IH. intros; apply H; auto; right; assumption.
  - apply Forall_forall. intros y Y. rewrite Forall_forall in G. apply H; auto; [left; reflexivity|right; assumption].
Qed.
Lemma asc_total {A} (k : A -> Q) x y : ascending k x y = true \/ ascending k y x = true.
Proof. unfold ascending. rewrite !Qle_bool_iff. destruct (Qlt_le_dec (k x) (k y)); [left; apply Qlt_le_weak; assumption|right; assumption]. Qed.
Lemma asc_trans {A} (k : A -> Q) x y z : ascending k x y = true -> ascending k y z = true -> ascending k x z = true.
Proof. unfold ascending. rewrite !Qle_bool_iff. apply Qle_trans. Qed.
Lemma desc_total {A} (k : A -> Q) x y : descending k x y = true \/ descending k y x = true.
Proof. unfold descending. rewrite !Qle_bool_iff. destruct (Qlt_le_dec (k x) (k y)); [right; apply Qlt_le_weak; assumption|left; assumption]. Qed.
Lemma desc_trans {A} (k : A -> Q) x y z : descending k x y = true -> descending k y z = true -> descending k x z = true.
Proof. unfold descending. rewrite !Qle_bool_iff. intros H1 H2. eapply Qle_trans; eassumption. Qed.

(** The order of two sorts, one after the other. *)
Lemma two_sorts_asc {A} (k1 k2 : A -> Q) l :
  StronglySorted (fun x y => (k1 x <= k1 y)%Q /\ (k1 x == k1 y -> k2 x <= k2 y)%Q) (sort_by (ascending k1) (sort_by (ascending k2) l)).
Proof.
  eapply sorted_weaken; [|apply (sort_sorted (ascending k1) (asc_total k1) (asc_trans k1) _ _ (sort_sorted (ascending k2) (asc_total k2) (asc_trans k2) (fun _ _ => True) _ (always_sorted l)))].
  intros x y _ _ [H1 H2]. unfold ascending in *. rewrite Qle_bool_iff in H1. split; [exact H1|]. intros E. destruct H2 as [H2 _]; [rewrite Qle_bool_iff; apply Qle_lteq; right; symmetry; exact E|]. apply Qle_bool_iff. exact H2.
Qed.
Lemma two_sorts_desc {A} (k1 k2 : A -> Q) l :
  StronglySorted (fun x y => (k1 y <= k1 x)%Q /\ (k1 x == k1 y -> k2 y <= k2 x)%Q) (sort_by (descending k1) (sort_by (descending k2) l)).
Proof.
  eapply sorted_weaken; [|apply (sort_sorted (descending k1) (desc_total k1) (desc_trans k1) _ _ (sort_sorted (descending k2) (desc_total k2) (desc_trans k2) (fun _ _ => True) _ (always_sorted l)))].
  intros x y _ _ [H1 H2]. unfold descending in *. rewrite Qle_bool_iff in H1. split; [exact H1|]. intros E. destruct H2 as [H2 _]; [rewrite Qle_bool_iff; apply Qle_lteq; right; exact E|]. apply Qle_bool_iff. exact H2.
Qed.

(** Two sorted lists with the same members have the same keys. *)
Lemma sorted_unique : forall l1 l2 : list nat, StronglySorted le l1 -> StronglySorted le l2 -> Permutation l1 l2 -> l1 = l2.
Proof.
  induction l1 as [|x l1 IH]; intros l2 S1 S2 P.
  - apply Permutation_nil in P. congruence.
  - destruct l2 as [|y l2]; [apply Permutation_sym, Permutation_nil in P; discriminate|].
    inversion S1 as [|? ? S1' F1]; inversion S2 as [|? ? S2' F2]; subst. rewrite Forall_forall in F1, F2.
    assert (x = y).
    { assert (X : In x (y :: l2)) by (apply (Permutation_in _ P); left; reflexivity).
      assert (Y : In y (x :: l1)) by (apply (Permutation_in _ (Permutation_sym P)); left; reflexivity).
      destruct X as [->|X]; [reflexivity|]. destruct Y as [->|Y]; [reflexivity|]. apply F1 in Y. apply F2 in X. lia. }
    subst y. f_equal. apply IH; auto. eapply Permutation_cons_inv; eassumption.
Qed.

Lemma filter_split {A} (p q r : A -> bool) l : (forall x, In x l -> p x = orb (q x) (r x)) -> (forall x, In x l -> andb (q x) (r x) = false) ->
  Permutation (filter p l) (filter q l ++ filter r l).
Proof.
  induction l as [|x l IH]; intros H1 H2; [reflexivity|]. cbn [filter]. pose proof (H1 x (or_introl eq_refl)) as E1. pose proof (H2 x (or_introl eq_refl)) as E2.
  specialize (IH (fun y Y => H1 y (or_intror Y)) (fun y Y => H2 y (or_intror Y))).
  destruct (q x), (r x); cbn in E1, E2; try discriminate; rewrite E1; cbn [app].
  - constructor. exact IH.
  - rewrite IH. apply Permutation_middle.
  - exact IH.
Qed.

(** ** Contents of the layer *)
Fixpoint leaves (x : node) : list nat := match x with NObject i => [i] | NElement _ _ l => flat_map leaves l end.
Fixpoint elements (x : node) : list (tag * nat * list nat) :=
  match x with NObject _ => [] | NElement t id l => (t, id, flat_map leaves l) :: flat_map elements l end.

(** ** Nesting *)
Record item := Item { it_tag : tag; it_id : nat; it_kind : nat; it_first : nat; it_last : nat }.
Definition content (x : item) : tag * nat * list nat := (it_tag x, it_id x, seq (it_first x) (S (it_last x) - it_first x)).

Definition frame : Type := tag * nat * list node.
(** The open elements are [W], and what they have now are the objects up to [i]. *)
Fixpoint good (i : nat) (acc : list nat) (W : list item) (st : list frame) (root : list node) : Prop :=
  match W, st with
  | [], [] => flat_map leaves root ++ acc = seq 0 i
  | x :: W, (t, id, c) :: st => t = it_tag x /\ id = it_id x /\ it_first x <= i /\ flat_map leaves c ++ acc = seq (it_first x) (i - it_first x) /\ good i (flat_map leaves c ++ acc) W st root
  | _, _ => False
  end.
Definition done (b : builder) : list (tag * nat * list nat) := flat_map elements (root b) ++ flat_map (fun f : frame => flat_map elements (snd f)) (open_ b).

Lemma good_push i x W st rt : it_first x = i -> good i [] W st rt -> good i [] (x :: W) ((it_tag x, it_id x, []) :: st) rt.
Proof. intros E G. cbn [good flat_map app]. rewrite E, PeanoNat.Nat.sub_diag. cbn [seq]. repeat split; [lia|exact G]. Qed.

Lemma good_more i : forall W st acc rt, good i acc W st rt -> good (S i) (acc ++ [i]) W st rt.
Proof.
  induction W as [|x W IH]; intros [|[[t id] c] st] acc rt; cbn [good]; try tauto.
  - intros H. rewrite app_assoc, H, seq_S. reflexivity.
  - intros (E1 & E2 & E3 & E4 & G). repeat split; auto.
    + rewrite app_assoc, E4. replace (S i - it_first x) with (S (i - it_first x)) by lia. rewrite seq_S. f_equal. f_equal. lia.
    + rewrite app_assoc. apply IH. exact G.
Qed.
Lemma flat_leaves_app a b : flat_map leaves (a ++ b) = flat_map leaves a ++ flat_map leaves b.
Proof. apply flat_map_app. Qed.

(** Adding to the innermost: acc goes into its contents. *)
Lemma good_absorb i x : forall W st rt, good i (leaves x) W st rt -> good i [] W (open_ (add_node x (Builder st rt))) (root (add_node x (Builder st rt))).
Proof.
  intros W st rt G. unfold add_node. cbn [open_ root]. destruct W as [|y W], st as [|[[t id] c] st]; cbn [good open_ root] in *; try contradiction.
  - rewrite flat_leaves_app. cbn [flat_map]. rewrite !app_nil_r. exact G.
  - destruct G as (E1 & E2 & E3 & E4 & G). rewrite flat_leaves_app. cbn [flat_map]. rewrite !app_nil_r. auto.
Qed.
Lemma done_add x b : Permutation (done (add_node x b)) (elements x ++ done b).
Proof.
  unfold done, add_node. destruct b as [[|[[t id] c] st] rt]; cbn [open_ root flat_map snd].
  - rewrite flat_map_app. cbn [flat_map]. rewrite !app_nil_r. apply Permutation_app_comm.
  - rewrite flat_map_app. cbn [flat_map]. rewrite app_nil_r. rewrite (Permutation_app_comm (flat_map elements c) (elements x)).
    rewrite <- !app_assoc. apply Permutation_app_swap_app.
Qed.

(** Closing the elements [A] on top. *)
Fixpoint close_all (strict : bool) (ts : list tag) (b : builder) : option builder :=
  match ts with [] => Some b | t :: ts => match tb_end strict t b with Some b' => close_all strict ts b' | None => None end end.
Lemma close_ok strict i : forall A ts W st rt, (forall x, In x A -> it_last x = i) -> length ts = length A -> (strict = true -> ts = map it_tag A) ->
  good (S i) [] (A ++ W) st rt ->
  exists b, close_all strict ts (Builder st rt) = Some b /\ good (S i) [] W (open_ b) (root b) /\ Permutation (done b) (map content A ++ done (Builder st rt)).
Proof.
  induction A as [|x A IH]; intros ts W st rt L E T G.
  - destruct ts; [|discriminate]. exists (Builder st rt). split; [reflexivity|]. split; [exact G|reflexivity].
  - destruct ts as [|t ts]; [discriminate|]. destruct st as [|[[t' id] c] st]; [contradiction|]. cbn [app good] in G. destruct G as (E1 & E2 & E3 & E4 & G). cbn [close_all tb_end open_ LayerModel.root].
    assert (strict && negb (tag_eqb t t') = false) as ->.
    { destruct strict; [|reflexivity]. specialize (T eq_refl). cbn [map] in T. injection T as T _. subst t t'. destruct (it_tag x); reflexivity. }
    cbn [LayerModel.root]. rewrite app_nil_r in G. apply (good_absorb (S i) (NElement t' id c)) in G.
    destruct (add_node (NElement t' id c) (Builder st rt)) as [st2 rt2] eqn:AD. cbn [open_ root] in G.
    destruct (IH ts W st2 rt2) as (b & B1 & B2 & B3); auto.
    + intros y Y. apply L. right. exact Y.
    + intros Hs. specialize (T Hs). cbn [map] in T. injection T as _ T. exact T.
    + exists b. split; [exact B1|]. split; [exact B2|]. rewrite B3, <- AD, done_add. cbn [elements map]. unfold content at 2.
      assert (flat_map leaves c = seq (it_first x) (S (it_last x) - it_first x)) as EC by (rewrite (L x (or_introl eq_refl)); rewrite app_nil_r in E4; exact E4).
      rewrite EC, <- E1, <- E2. unfold done. cbn [open_ LayerModel.root flat_map snd app]. rewrite <- Permutation_middle. constructor.
      rewrite !app_assoc. apply Permutation_app; [|reflexivity]. rewrite <- !app_assoc. apply Permutation_app; [reflexivity|]. apply Permutation_app_comm.
Qed.

(** ** One object *)
Definition ord (x y : item) : Prop := it_last x < it_last y \/ it_last x = it_last y /\ (it_first y < it_first x \/ it_first x = it_first y /\ it_kind x <= it_kind y).
Definition start_ord (x y : item) : Prop := it_last y < it_last x \/ it_last x = it_last y /\ it_kind y <= it_kind x.
Definition end_ord (x y : item) : Prop := it_first y < it_first x \/ it_first x = it_first y /\ it_kind x <= it_kind y.
Definition push (b : builder) (x : item) : builder := tb_start (it_tag x) (it_id x) b.

Lemma push_good i : forall ss W b, (forall x, In x ss -> it_first x = i) -> good i [] W (open_ b) (root b) ->
  good i [] (rev ss ++ W) (open_ (fold_left push ss b)) (root (fold_left push ss b)) /\ done (fold_left push ss b) = done b.
Proof.
  induction ss as [|x ss IH]; intros W b H G; [split; [exact G|reflexivity]|]. cbn [fold_left rev]. rewrite <- app_assoc. cbn [app].
  destruct (IH (x :: W) (push b x)) as [G' D].
  - intros y Y. apply H. right. exact Y.
  - unfold push, tb_start. cbn [open_ root]. apply good_push; [apply H; left; reflexivity|exact G].
  - split; [exact G'|]. rewrite D. unfold push, tb_start, done. cbn [open_ root flat_map snd app]. reflexivity.
Qed.

Lemma sorted_app {A} (R : A -> A -> Prop) l1 l2 : StronglySorted R l1 -> StronglySorted R l2 -> (forall x y, In x l1 -> In y l2 -> R x y) -> StronglySorted R (l1 ++ l2).
Proof.
  intros S1 S2 H. induction S1 as [|x l1 S1 IH F]; [exact S2|]. cbn [app]. constructor.
  - apply IH. intros; apply H; auto. right; assumption.
  - apply Forall_app. split; [exact F|]. apply Forall_forall. intros y Y. apply H; [left; reflexivity|exact Y].
Qed.
Lemma sorted_app_inv {A} (R : A -> A -> Prop) l1 l2 : StronglySorted R (l1 ++ l2) -> StronglySorted R l1 /\ StronglySorted R l2.
Proof.
  induction l1 as [|x l1 IH]; intros S; [split; [constructor|exact S]|]. cbn [app] in S. inversion S; subst. destruct (IH H1). split; [|assumption]. constructor; [assumption|]. apply Forall_app in H2. tauto.
Qed.
Lemma sorted_rev {A} (R : A -> A -> Prop) l : StronglySorted R l -> StronglySorted (fun x y => R y x) (rev l).
Proof.
  induction 1 as [|x l S IH F]; [constructor|]. cbn [rev]. apply sorted_app; [exact IH|repeat constructor|].
  intros y z Y [<-|[]]. rewrite Forall_forall in F. apply F. apply in_rev. exact Y.
Qed.
Lemma sorted_prefix (p : item -> bool) W : StronglySorted ord W -> (forall x y, ord x y -> p y = true -> p x = true) -> W = filter p W ++ filter (fun x => negb (p x)) W.
Proof.
  intros S H. induction S as [|x W S IH F]; [reflexivity|]. cbn [filter]. destruct (p x) eqn:E; cbn [negb app].
  - f_equal. exact IH.
  - assert (N : filter p W = []).
    { clear IH S. induction F as [|y W F0 F IH]; [reflexivity|]. cbn [filter]. destruct (p y) eqn:E2; [rewrite (H x y F0 E2) in E; discriminate|exact IH]. }
    rewrite N in IH |- *. cbn [app] in IH |- *. f_equal. exact IH.
Qed.
Lemma perm_filter {A} (p : A -> bool) l1 l2 : Permutation l1 l2 -> Permutation (filter p l1) (filter p l2).
Proof.
  induction 1; cbn [filter].
  - reflexivity.
  - destruct (p x); [constructor|]; assumption.
  - destruct (p x), (p y); try reflexivity. apply perm_swap.
  - etransitivity; eassumption.
Qed.
Lemma filter_filter {A} (p q : A -> bool) l : filter p (filter q l) = filter (fun x => q x && p x) l.
Proof. induction l as [|x l IH]; [reflexivity|]. cbn [filter]. destruct (q x); cbn [filter andb]; [|exact IH]. destruct (p x); [f_equal|]; exact IH. Qed.

Section step.
Variable E : list item.
Hypothesis laminar : forall x y, In x E -> In y E -> it_first x < it_first y -> it_first y <= it_last x -> it_last y <= it_last x.
Hypothesis forwards : forall x, In x E -> it_first x <= it_last x.
Hypothesis tags : forall x y, In x E -> In y E -> it_kind x = it_kind y -> it_tag x = it_tag y.
Hypothesis kinds : forall x, In x E -> it_kind x <= 3.

Definition open_at (i : nat) (x : item) : bool := (it_first x <? i) && (i <=? it_last x).
Definition closed_at (i : nat) (x : item) : bool := it_last x <? i.
Definition state (i : nat) (b : builder) : Prop := exists W, good i [] W (open_ b) (root b) /\ Permutation W (filter (open_at i) E) /\ StronglySorted ord W /\
  Permutation (done b) (map content (filter (closed_at i) E)).

Lemma ord_key n x y : it_first x <= n -> it_first y <= n -> it_kind x <= 3 -> it_kind y <= 3 -> end_ord x y -> (n - it_first x) * 4 + it_kind x <= (n - it_first y) * 4 + it_kind y.
Proof. unfold end_ord. lia. Qed.
Lemma sorted_map {A B} (f : A -> B) (R : A -> A -> Prop) (Q : B -> B -> Prop) l : (forall x y, In x l -> In y l -> R x y -> Q (f x) (f y)) -> StronglySorted R l -> StronglySorted Q (map f l).
Proof.
  intros H S. induction S as [|x l S IH F]; [constructor|]. cbn [map]. constructor.
  - apply IH. intros; apply H; auto; right; assumption.
  - apply Forall_forall. intros y Y. apply in_map_iff in Y. destruct Y as (z & <- & Z). rewrite Forall_forall in F. apply H; auto; [left; reflexivity|right; exact Z].
Qed.

(** Lists with the same members, both in the order of closing, have the same tags. *)
Lemma same_tags l1 l2 : Permutation l1 l2 -> (forall x, In x l1 -> In x E) -> StronglySorted end_ord l1 -> StronglySorted end_ord l2 -> map it_tag l1 = map it_tag l2.
Proof.
  intros P I S1 S2.
  assert (exists n, forall x, In x l1 -> it_first x <= n) as (n & N).
  { clear. induction l1 as [|x l IH]; [exists 0; intros ? []|]. destruct IH as (n & N). exists (n + it_first x). intros y [<-|Y]; [lia|]. apply N in Y. lia. }
  pose (key := fun x => (n - it_first x) * 4 + it_kind x).
  assert (I2 : forall x, In x l2 -> In x l1) by (intros x; apply (Permutation_in _ (Permutation_sym P))).
  assert (K : map key l1 = map key l2).
  { apply sorted_unique.
    - eapply sorted_map; [|exact S1]. intros x y X Y. apply ord_key; auto.
    - eapply sorted_map; [|exact S2]. intros x y X Y. apply ord_key; auto.
    - apply Permutation_map. exact P. }
  clear P S1 S2. assert (I3 : forall x, In x l2 -> In x E) by auto. assert (N2 : forall x, In x l2 -> it_first x <= n) by auto. clear I2.
  revert l2 K I3 N2. induction l1 as [|x l1 IH]; intros [|y l2] K I3 N2; try discriminate; [reflexivity|]. cbn [map] in K |- *. injection K as K1 K. f_equal.
  - apply tags; [apply I; left; reflexivity|apply I3; left; reflexivity|]. unfold key in K1.
    pose proof (kinds x (I x (or_introl eq_refl))) as G1. pose proof (kinds y (I3 y (or_introl eq_refl))) as G2. lia.
  - apply IH; auto; [intros z Z; apply I; right; exact Z|intros z Z; apply N; right; exact Z|intros z Z; apply I3; right; exact Z|intros z Z; apply N2; right; exact Z].
Qed.

Lemma step strict i b ss es : state i b ->
  Permutation ss (filter (fun x => it_first x =? i) E) -> StronglySorted start_ord ss ->
  Permutation es (filter (fun x => it_last x =? i) E) -> (strict = true -> StronglySorted end_ord es) ->
  exists b', close_all strict (map it_tag es) (add_node (NObject i) (fold_left push ss b)) = Some b' /\ state (S i) b'.
Proof.
  intros (W & G & PW & SW & D) Ps Ss Pe Se.
  assert (Fs : forall x, In x ss -> In x E /\ it_first x = i).
  { intros x X. apply (Permutation_in _ Ps), filter_In in X. destruct X as [X1 X2]. apply PeanoNat.Nat.eqb_eq in X2. auto. }
  assert (FW : forall x, In x W -> In x E /\ it_first x < i /\ i <= it_last x).
  { intros x X. apply (Permutation_in _ PW), filter_In in X. unfold open_at in X. rewrite Bool.andb_true_iff, PeanoNat.Nat.ltb_lt, PeanoNat.Nat.leb_le in X. tauto. }
  destruct (push_good i ss W b) as [G1 D1]; [intros x X; apply Fs in X; tauto|exact G|].
  assert (G2 : good (S i) (leaves (NObject i)) (rev ss ++ W) (open_ (fold_left push ss b)) (root (fold_left push ss b))) by (apply (good_more i _ _ [] _ G1)).
  apply good_absorb in G2. replace (Builder (open_ (fold_left push ss b)) (root (fold_left push ss b))) with (fold_left push ss b) in G2 by (destruct (fold_left push ss b); reflexivity).
  assert (SV : StronglySorted ord (rev ss ++ W)).
  { apply sorted_app.
    - eapply sorted_weaken; [|apply sorted_rev; exact Ss]. intros x y X Y. apply in_rev in X, Y. apply Fs in X, Y. unfold start_ord, ord. lia.
    - exact SW.
    - intros x y X Y. apply in_rev in X. apply Fs in X. apply FW in Y. destruct X as [X1 X2], Y as (Y1 & Y2 & Y3). pose proof (laminar y x Y1 X1). unfold ord. lia. }
  set (V := rev ss ++ W) in *.
  assert (PV : Permutation V (filter (fun x => (it_first x <=? i) && (i <=? it_last x)) E)).
  { unfold V. rewrite <- Permutation_rev, Ps, PW. symmetry. etransitivity; [|apply Permutation_app_comm]. apply filter_split.
    - intros x X. apply forwards in X. unfold open_at. destruct (it_first x <=? i) eqn:E1, (i <=? it_last x) eqn:E2, (it_first x <? i) eqn:E3, (it_first x =? i) eqn:E4; try reflexivity; exfalso; rewrite ?PeanoNat.Nat.leb_le, ?PeanoNat.Nat.leb_gt, ?PeanoNat.Nat.ltb_lt, ?PeanoNat.Nat.ltb_ge, ?PeanoNat.Nat.eqb_eq, ?PeanoNat.Nat.eqb_neq in *; lia.
    - intros x X. unfold open_at. destruct (it_first x <? i) eqn:E3, (it_first x =? i) eqn:E4; rewrite ?Bool.andb_false_r; try reflexivity. exfalso. rewrite PeanoNat.Nat.ltb_lt, PeanoNat.Nat.eqb_eq in *. lia. }
  assert (FV : forall x, In x V -> In x E /\ it_first x <= i /\ i <= it_last x).
  { intros x X. apply (Permutation_in _ PV), filter_In in X. rewrite Bool.andb_true_iff, !PeanoNat.Nat.leb_le in X. tauto. }
  set (p := fun x => it_last x <=? i).
  assert (VV : V = filter p V ++ filter (fun x => negb (p x)) V).
  { apply sorted_prefix; [exact SV|]. unfold p, ord. intros x y O. rewrite !PeanoNat.Nat.leb_le. lia. }
  set (A := filter p V) in *. set (B := filter (fun x => negb (p x)) V) in *.
  assert (PA : Permutation es A).
  { rewrite Pe. unfold A. rewrite (perm_filter _ _ _ PV), filter_filter. apply Permutation_refl'. apply filter_ext_in. intros x X. apply forwards in X. unfold p.
    destruct (it_last x =? i) eqn:E1, (it_first x <=? i) eqn:E2, (i <=? it_last x) eqn:E3, (it_last x <=? i) eqn:E4; try reflexivity; exfalso; rewrite ?PeanoNat.Nat.leb_le, ?PeanoNat.Nat.leb_gt, ?PeanoNat.Nat.eqb_eq, ?PeanoNat.Nat.eqb_neq in *; lia. }
  assert (LA : forall x, In x A -> it_last x = i).
  { intros x X. unfold A in X. apply filter_In in X. destruct X as [X1 X2]. apply FV in X1. unfold p in X2. rewrite PeanoNat.Nat.leb_le in X2. lia. }
  rewrite VV in SV, G2. destruct (sorted_app_inv _ _ _ SV) as [SA SB].
  assert (SA' : StronglySorted end_ord A) by (eapply sorted_weaken; [|exact SA]; intros x y X Y; apply LA in X, Y; unfold ord, end_ord; lia).
  destruct (add_node (NObject i) (fold_left push ss b)) as [st rt] eqn:AD. cbn [open_ root] in G2.
  destruct (close_ok strict i A (map it_tag es) B st rt) as (b' & B1 & B2 & B3); auto.
  { rewrite map_length. apply Permutation_length. exact PA. }
  { intros Hs. apply same_tags; auto. intros x X. apply (Permutation_in _ PA) in X. unfold A in X. apply filter_In in X. apply FV. tauto. }
  exists b'. split; [exact B1|]. exists B. split; [exact B2|]. split; [|split; [exact SB|]].
  - unfold B. rewrite (perm_filter _ _ _ PV), filter_filter. apply Permutation_refl'. apply filter_ext_in. intros x X. apply forwards in X. unfold p, open_at.
    destruct (it_first x <=? i) eqn:E1, (i <=? it_last x) eqn:E2, (it_last x <=? i) eqn:E3, (it_first x <? S i) eqn:E4, (S i <=? it_last x) eqn:E5; try reflexivity; exfalso; rewrite ?PeanoNat.Nat.leb_le, ?PeanoNat.Nat.leb_gt, ?PeanoNat.Nat.ltb_lt, ?PeanoNat.Nat.ltb_ge in *; lia.
  - rewrite B3, <- AD, done_add, D1, D. cbn [elements app]. rewrite <- map_app. apply Permutation_map. rewrite <- PA, Pe. symmetry. apply filter_split.
    + intros x X. unfold closed_at. destruct (it_last x <? S i) eqn:E1, (it_last x =? i) eqn:E2, (it_last x <? i) eqn:E3; try reflexivity; exfalso; rewrite ?PeanoNat.Nat.ltb_lt, ?PeanoNat.Nat.ltb_ge, ?PeanoNat.Nat.eqb_eq, ?PeanoNat.Nat.eqb_neq in *; lia.
    + intros x X. unfold closed_at. destruct (it_last x =? i) eqn:E2, (it_last x <? i) eqn:E3; try reflexivity; exfalso; rewrite ?PeanoNat.Nat.ltb_lt, ?PeanoNat.Nat.eqb_eq in *; lia.
Qed.

Lemma state_0 : state 0 (Builder [] []).
Proof.
  exists []. split; [reflexivity|]. split; [|split; [constructor|]].
  - rewrite (filter_ext_in _ (fun _ => false)); [|intros x _; reflexivity]. clear. induction E; [reflexivity|exact IHl].
  - rewrite (filter_ext_in _ (fun _ => false)); [|intros x _; reflexivity]. clear. induction E; [reflexivity|exact IHl].
Qed.
Lemma state_end n b : (forall x, In x E -> it_last x < n) -> state n b -> open_ b = [] /\ flat_map leaves (root b) = seq 0 n /\ Permutation (flat_map elements (root b)) (map content E).
Proof.
  intros H (W & G & PW & _ & D).
  assert (W = []) as ->.
  { rewrite (filter_ext_in _ (fun _ => false)) in PW.
    - apply Permutation_nil. symmetry. rewrite PW. clear. induction E; [reflexivity|exact IHl].
    - intros x X. apply H in X. unfold open_at. apply Bool.andb_false_iff. right. apply PeanoNat.Nat.leb_gt. exact X. }
  destruct (open_ b) as [|[[t id] c] st] eqn:O; [|contradiction G]. split; [reflexivity|]. cbn [good] in G. rewrite app_nil_r in G. split; [exact G|].
  unfold done in D. rewrite O in D. cbn [flat_map] in D. rewrite app_nil_r in D. rewrite D. apply Permutation_map. apply Permutation_refl'.
  transitivity (filter (fun _ => true) E); [apply filter_ext_in; intros x X; unfold closed_at; apply PeanoNat.Nat.ltb_lt; auto|]. clear. induction E; [reflexivity|cbn [filter]; congruence].
Qed.
End step.
