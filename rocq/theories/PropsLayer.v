(** C88: beams, tuplets and tremolos are nested rightly in MEI. *)
From Verif Require Import PyStr LayerModel LayerProofs.
From Coq Require Import QArith Lqa Lia Permutation Sorted.
Local Close Scope Q_scope.

(** ** Vocabulary *)

(** The notes of a spanner in the measure; the first and the last of them. *)
Definition notes (s : spanner) : list nat := flat_map (fun x => match x with Some i => [i] | None => [] end) (sp_elements s).
Definition first_note (s : spanner) : nat := hd 0 (notes s).
Definition last_note (s : spanner) : nat := last (notes s) 0.
(** All its notes are in the voice, which has [n] objects, in their order. *)
Definition local (n : nat) (s : spanner) : Prop := ~ In None (sp_elements s) /\ notes s <> [] /\ StronglySorted lt (notes s) /\ Forall (fun i => i < n) (notes s).
Definition crossing (s t : spanner) : Prop := first_note s < first_note t /\ first_note t <= last_note s /\ last_note s < last_note t.
Definition shares (s t : spanner) : Prop := exists x, In x (notes s) /\ In x (notes t).
(** When an object begins and ends. *)
Definition begins (voice : list object) (i : nat) : Q := match nth_error voice i with Some o => ob_offset o | None => 0 end.
Definition ends (voice : list object) (i : nat) : Q := match nth_error voice i with Some o => (ob_offset o + ob_length o)%Q | None => 0 end.
Definition tremolo (s : spanner) : Prop := match sp_kind s with Tremolo _ => True | _ => False end.
(** The objects follow each other. *)
Definition in_time (voice : list object) : Prop :=
  (forall i, i < length voice -> (begins voice i <= ends voice i)%Q) /\ (forall i j, i < j -> j < length voice -> (ends voice i <= begins voice j)%Q).

Record well_formed (voice : list object) (sps : list spanner) : Prop := WellFormed {
  (* spanners lie in the voice, or reach into other measures *)
  wf_local : forall s, In s sps -> local (length voice) s \/ (In None (sp_elements s) /\ ~ tremolo s);
  wf_two : forall s, In s sps -> tremolo s -> length (notes s) = 2;
  wf_time : in_time voice;
  (* no note has two beams *)
  wf_beams : forall i j s t, i <> j -> nth_error sps i = Some s -> nth_error sps j = Some t -> sp_kind s = Beam -> sp_kind t = Beam -> ~ shares s t;
  (* only a tuplet and a beam may cross, if they share a note *)
  wf_cross : forall s t, In s sps -> In t sps -> local (length voice) s -> local (length voice) t -> crossing s t ->
    shares s t /\ ((sp_kind s = Beam /\ sp_kind t = Tuplet) \/ (sp_kind s = Tuplet /\ sp_kind t = Beam));
  (* of two spanners with the same first note, the one with more notes ends later *)
  wf_tail : forall s t, In s sps -> In t sps -> local (length voice) s -> local (length voice) t -> first_note s = first_note t -> last_note s < last_note t ->
    (ends voice (last_note s) < ends voice (last_note t))%Q }.

(** A tuplet fits if each beam has none of its notes, or all of them, or no others. *)
Definition fits (sps : list spanner) (t : spanner) : Prop :=
  forall b, In b sps -> sp_kind b = Beam -> ~ shares t b \/ incl (sp_elements t) (sp_elements b) \/ incl (sp_elements b) (sp_elements t).
(** The spanners that have an element in the layer. *)
Definition printed (n : nat) (sps : list spanner) (s : spanner) : Prop :=
  local n s /\ match sp_kind s with Beam => True | Tuplet => fits sps s | Tremolo k => (1 <= k <= 9)%Z end.

(** ** Proofs *)
Lemma oeqb_eq a b : oeqb a b = true <-> a = b.
Proof. destruct a as [a|], b as [b|]; cbn; split; try discriminate; try reflexivity; [rewrite PeanoNat.Nat.eqb_eq; congruence|intros [= ->]; apply PeanoNat.Nat.eqb_refl]. Qed.
Lemma is_in_In x l : is_in x l = true <-> In x l.
Proof. unfold is_in. rewrite existsb_exists. split; [intros (y & Y & E); apply oeqb_eq in E; congruence|intros H; exists x; split; [exact H|apply oeqb_eq; reflexivity]]. Qed.
Lemma issubset_incl a b : issubset a b = true <-> incl a b.
Proof. unfold issubset, incl. rewrite forallb_forall. split; intros H x X; [apply is_in_In; auto|apply is_in_In; auto]. Qed.
Lemma isdisjoint_spec a b : isdisjoint a b = true <-> (forall x, In x a -> ~ In x b).
Proof. unfold isdisjoint. rewrite forallb_forall. split; intros H x X; specialize (H x X); [rewrite Bool.negb_true_iff in H; rewrite <- is_in_In, H; discriminate|apply Bool.negb_true_iff; rewrite <- is_in_In in H; destruct (is_in x b); congruence]. Qed.
Lemma in_notes s x : In x (notes s) <-> In (Some x) (sp_elements s).
Proof. unfold notes. rewrite in_flat_map. split; [intros ([y|] & Y & E); [destruct E as [<-|[]]; exact Y|destruct E]|intros H; exists (Some x); split; [exact H|left; reflexivity]]. Qed.
Lemma local_elements s : ~ In None (sp_elements s) -> sp_elements s = map Some (notes s).
Proof. unfold notes. induction (sp_elements s) as [|[x|] l IH]; intros H; [reflexivity| |exfalso; apply H; left; reflexivity]. cbn [flat_map app map]. f_equal. apply IH. intros X. apply H. right. exact X. Qed.
Lemma in_measure_spec s : in_measure s = true <-> ~ In None (sp_elements s).
Proof. unfold in_measure. rewrite forallb_forall. split; [intros H X; apply H in X; discriminate|intros H [x|] X; [reflexivity|contradiction]]. Qed.
Lemma first_is s i : local i s -> forall j, is_first s j = (first_note s =? j).
Proof. intros (H1 & H2 & _) j. unfold is_first, first_note. rewrite (local_elements s H1). destruct (notes s); [contradiction|]. reflexivity. Qed.
Lemma last_map_some l : l <> [] -> last (map Some l) None = Some (last l 0).
Proof. intros H. induction l as [|x l IH]; [contradiction|]. destruct l as [|y l]; [reflexivity|]. cbn [map last] in *. apply IH. discriminate. Qed.
Lemma last_is s i : local i s -> forall j, is_last s j = (last_note s =? j).
Proof. intros (H1 & H2 & _) j. unfold is_last, last_note. rewrite (local_elements s H1), (last_map_some _ H2). reflexivity. Qed.
Lemma sorted_bounds l : StronglySorted lt l -> forall x, In x l -> hd 0 l <= x /\ x <= last l 0.
Proof.
  intros S. induction S as [|y l S IH F]; intros x X; [destruct X|]. rewrite Forall_forall in F. destruct X as [->|X].
  - split; [cbn; lia|]. destruct l as [|z l]; [cbn; lia|]. change (last (x :: z :: l) 0) with (last (z :: l) 0). destruct (IH z (or_introl eq_refl)). pose proof (F z (or_introl eq_refl)). cbn [hd] in *. lia.
  - split; [cbn; apply F in X; lia|]. destruct l as [|z l]; [destruct X|]. change (last (y :: z :: l) 0) with (last (z :: l) 0). apply IH. exact X.
Qed.
Lemma hd_in {A} (d : A) l : l <> [] -> In (hd d l) l.
Proof. destruct l; [contradiction|left; reflexivity]. Qed.
Lemma last_in {A} (d : A) l : l <> [] -> In (last l d) l.
Proof. intros H. induction l as [|x l IH]; [contradiction|]. destruct l as [|y l]; [left; reflexivity|]. right. apply IH. discriminate. Qed.
Lemma local_bounds n s x : local n s -> In x (notes s) -> first_note s <= x <= last_note s.
Proof. intros (_ & _ & S & _) X. apply sorted_bounds; assumption. Qed.
Lemma local_first n s : local n s -> In (first_note s) (notes s).
Proof. intros (_ & H & _). apply hd_in. exact H. Qed.
Lemma local_last n s : local n s -> In (last_note s) (notes s).
Proof. intros (_ & H & _). apply last_in. exact H. Qed.
Lemma local_range n s : local n s -> first_note s <= last_note s /\ last_note s < n.
Proof. intros L. split; [apply (local_bounds n s _ L (local_first n s L))|]. pose proof (local_last n s L) as X. destruct L as (_ & _ & _ & F). rewrite Forall_forall in F. apply F. exact X. Qed.
Lemma shares_sym s t : shares s t -> shares t s.
Proof. intros (x & X & Y). exists x. auto. Qed.
Lemma incl_notes s t : incl (sp_elements s) (sp_elements t) -> incl (notes s) (notes t).
Proof. intros H x X. apply in_notes, H, in_notes, X. Qed.

Section proof.
Variable voice : list object.
Variable sps : list spanner.
Hypothesis WF : well_formed voice sps.
Let n := length voice.

Lemma numbered_nth p : In p (numbered sps) <-> nth_error sps (fst p) = Some (snd p).
Proof.
  unfold numbered. assert (H : forall l k, In p (combine (seq k (length l)) l) <-> (k <= fst p /\ nth_error l (fst p - k) = Some (snd p))).
  { induction l as [|s l IH]; intros k; cbn [length seq combine].
    - split; [intros []|intros [_ H]; destruct (fst p - k); discriminate].
    - cbn [In]. rewrite IH. destruct p as [id x]. cbn [fst snd]. split.
      + intros [[= -> ->]|[H1 H2]]; [rewrite PeanoNat.Nat.sub_diag; auto|]. split; [lia|]. replace (id - k) with (S (id - S k)) by lia. exact H2.
      + intros [H1 H2]. destruct (PeanoNat.Nat.eq_dec k id) as [->|N]; [left; rewrite PeanoNat.Nat.sub_diag in H2; injection H2 as ->; reflexivity|]. right. split; [lia|]. replace (id - k) with (S (id - S k)) in H2 by lia. exact H2. }
  rewrite H, PeanoNat.Nat.sub_0_r. split; [tauto|]. intros X. split; [lia|exact X].
Qed.
Lemma numbered_in p : In p (numbered sps) -> In (snd p) sps.
Proof. rewrite numbered_nth. apply nth_error_In. Qed.
Lemma numbered_same p q : In p (numbered sps) -> In q (numbered sps) -> fst p = fst q -> p = q.
Proof. rewrite !numbered_nth. destruct p, q. cbn. intros H1 H2 <-. rewrite H1 in H2. injection H2 as <-. reflexivity. Qed.

Lemma not_shares_disjoint t b : ~ In None (sp_elements t) -> (isdisjoint (sp_elements t) (sp_elements b) = true <-> ~ shares t b).
Proof.
  intros N. rewrite isdisjoint_spec. split.
  - intros H (x & X & Y). apply (H (Some x)); apply in_notes; assumption.
  - intros H [x|] X Y; [|contradiction]. apply H. exists x. rewrite !in_notes. auto.
Qed.
Lemma not_shares_disjoint2 t b : ~ In None (sp_elements t) -> (isdisjoint (sp_elements b) (sp_elements t) = true <-> ~ shares t b).
Proof.
  intros N. rewrite isdisjoint_spec. split.
  - intros H (x & X & Y). apply (H (Some x)); apply in_notes; assumption.
  - intros H [x|] X Y; [|contradiction]. apply H. exists x. rewrite !in_notes. auto.
Qed.

Lemma voice_beam t b id : local n t -> shares t b -> sp_kind b = Beam -> nth_error sps id = Some b -> In (id, b) (voiceBeams voice sps).
Proof.
  intros L (x & X & Y) K N. unfold voiceBeams. apply filter_In. split; [apply numbered_nth; exact N|]. cbn [snd]. unfold is_beam. rewrite K. cbn [andb]. apply existsb_exists. exists (Some x). split; [apply in_notes; exact Y|].
  apply PeanoNat.Nat.ltb_lt. destruct L as (_ & _ & _ & F). rewrite Forall_forall in F. apply F. exact X.
Qed.

Lemma nests_fits t : local n t -> (nestsReasonably voice sps t = true <-> fits sps t).
Proof.
  intros L. pose proof L as (LN & _). unfold nestsReasonably. rewrite forallb_forall. split.
  - intros H b B K. destruct (isdisjoint (sp_elements t) (sp_elements b)) eqn:D; [left; apply (not_shares_disjoint t b LN); exact D|].
    assert (SH : shares t b).
    { assert (~ forall x, In x (sp_elements t) -> ~ In x (sp_elements b)) as X by (rewrite <- isdisjoint_spec, D; discriminate).
      destruct (existsb (fun x => is_in x (sp_elements b)) (sp_elements t)) eqn:EX.
      - apply existsb_exists in EX. destruct EX as ([x|] & E1 & E2); [|contradiction]. apply is_in_In in E2. exists x. rewrite !in_notes. auto.
      - exfalso. apply X. intros x X1 X2. assert (existsb (fun x => is_in x (sp_elements b)) (sp_elements t) = true) as EX' by (apply existsb_exists; exists x; split; [exact X1|apply is_in_In; exact X2]). congruence. }
    right. apply In_nth_error in B. destruct B as (id & B). specialize (H (id, b) (voice_beam t b id L SH K B)). cbn [snd] in H. rewrite D in H.
    destruct (issubset (sp_elements t) (sp_elements b)) eqn:S1; [left; apply issubset_incl; exact S1|]. destruct (issubset (sp_elements b) (sp_elements t)) eqn:S2; [right; apply issubset_incl; exact S2|]. discriminate H.
  - intros F p P. unfold voiceBeams in P. apply filter_In in P. destruct P as [P Q]. apply Bool.andb_true_iff in Q. destruct Q as [Q _]. unfold is_beam in Q. pose proof P as Pn. rewrite numbered_nth in Pn.
    assert (K : sp_kind (snd p) = Beam) by (destruct (sp_kind (snd p)); congruence).
    destruct (isdisjoint (sp_elements t) (sp_elements (snd p))) eqn:D; [reflexivity|]. destruct (issubset (sp_elements t) (sp_elements (snd p))) eqn:S1; [reflexivity|].
    assert (S2 : incl (sp_elements (snd p)) (sp_elements t)).
    { destruct (F (snd p) (numbered_in _ P) K) as [A|[A|A]]; [|apply issubset_incl in A; congruence|exact A]. apply (not_shares_disjoint t _ LN) in A. congruence. }
    rewrite (proj2 (issubset_incl _ _) S2). cbn [negb]. apply forallb_forall. intros p1 P1. destruct (fst p1 =? fst p) eqn:EI; [reflexivity|]. apply PeanoNat.Nat.eqb_neq in EI.
    apply filter_In in P1. destruct P1 as [P1 Q1]. apply Bool.andb_true_iff in Q1. destruct Q1 as [Q1 _]. unfold is_beam in Q1. assert (K1 : sp_kind (snd p1) = Beam) by (destruct (sp_kind (snd p1)); congruence).
    destruct (isdisjoint (sp_elements (snd p1)) (sp_elements t)) eqn:D1; [reflexivity|]. destruct (F (snd p1) (numbered_in _ P1) K1) as [A|[A|A]].
    + apply (not_shares_disjoint2 t _ LN) in A. congruence.
    + exfalso. rewrite numbered_nth in P1. apply (wf_beams _ _ WF _ _ _ _ EI P1 Pn K1 K).
      destruct (existsb (fun x => is_in x (sp_elements (snd p))) (sp_elements t)) eqn:EX.
      * apply existsb_exists in EX. destruct EX as ([x|] & E1 & E2); [|contradiction]. apply is_in_In in E2. exists x. rewrite !in_notes. split; [apply A; exact E1|exact E2].
      * assert (isdisjoint (sp_elements t) (sp_elements (snd p)) = true); [|congruence]. apply isdisjoint_spec. intros x X1 X2. assert (existsb (fun x => is_in x (sp_elements (snd p))) (sp_elements t) = true) by (apply existsb_exists; exists x; split; [exact X1|apply is_in_In; exact X2]). congruence.
    + apply issubset_incl. exact A.
Qed.

(** The items: printed spanners. *)
Definition valid (s : spanner) : bool := match sp_kind s with Tremolo k => (1 <=? k)%Z && (k <=? 9)%Z | _ => true end.
Definition wanted (s : spanner) : bool :=
  match sp_kind s with Beam => in_measure s | Tuplet => in_measure s && nestsReasonably voice sps s | Tremolo _ => length (sp_elements s) =? 2 end.
Definition kind_nat (s : spanner) : nat := match sp_kind s with Beam => 1 | Tuplet => 2 | Tremolo _ => 3 end.
Definition item_of (p : nat * spanner) : item := Item (tag_of (sp_kind (snd p))) (fst p) (kind_nat (snd p)) (first_note (snd p)) (last_note (snd p)).
Definition emitted (p : nat * spanner) : bool := wanted (snd p) && valid (snd p).
Definition items : list item := map item_of (filter emitted (numbered sps)).

Lemma local_or s : In s sps -> local n s \/ (In None (sp_elements s) /\ ~ tremolo s).
Proof. apply (wf_local _ _ WF). Qed.
Lemma wanted_local s : In s sps -> wanted s = true -> local n s.
Proof.
  intros I W. destruct (local_or s I) as [L|[N T]]; [exact L|]. exfalso. unfold wanted, tremolo in *. destruct (sp_kind s); [| |exact (T Logic.I)].
  - apply in_measure_spec in W. contradiction.
  - apply Bool.andb_true_iff in W. destruct W as [W _]. apply in_measure_spec in W. contradiction.
Qed.
Lemma printed_spec p : In p (numbered sps) -> (emitted p = true <-> printed n sps (snd p)).
Proof.
  intros P. apply numbered_in in P. unfold emitted. rewrite Bool.andb_true_iff. split.
  - intros [W V]. pose proof (wanted_local _ P W) as L. split; [exact L|]. unfold wanted, valid in *. destruct (sp_kind (snd p)); [exact Logic.I| |].
    + apply Bool.andb_true_iff in W. destruct W as [_ W]. apply (nests_fits _ L). exact W.
    + apply Bool.andb_true_iff in V. lia.
  - intros [L Q]. unfold wanted, valid. destruct (sp_kind (snd p)) eqn:K.
    + split; [|reflexivity]. apply in_measure_spec. apply L.
    + split; [|reflexivity]. apply Bool.andb_true_iff. split; [apply in_measure_spec; apply L|]. apply (nests_fits _ L). exact Q.
    + split; [|apply Bool.andb_true_iff; lia]. apply PeanoNat.Nat.eqb_eq. rewrite (local_elements _ (proj1 L)), map_length. apply (wf_two _ _ WF); [exact P|]. unfold tremolo. rewrite K. exact Logic.I.
Qed.
Lemma items_in x : In x items -> exists p, x = item_of p /\ In p (numbered sps) /\ printed n sps (snd p).
Proof. unfold items. rewrite in_map_iff. intros (p & <- & P). apply filter_In in P. destruct P as [P Q]. exists p. split; [reflexivity|]. split; [exact P|]. apply printed_spec; assumption. Qed.

Lemma items_laminar x y : In x items -> In y items -> it_first x < it_first y -> it_first y <= it_last x -> it_last y <= it_last x.
Proof.
  intros X Y. destruct (items_in _ X) as (p & -> & P & [L1 Q1]). destruct (items_in _ Y) as (q & -> & Q & [L2 Q2]). cbn [item_of it_first it_last]. intros H1 H2.
  destruct (Compare_dec.le_lt_dec (last_note (snd q)) (last_note (snd p))) as [G|G]; [exact G|]. exfalso.
  destruct (wf_cross _ _ WF (snd p) (snd q)) as [SH K]; auto using numbered_in; [repeat split; assumption|].
  pose proof (local_first _ _ L1) as F1. pose proof (local_last _ _ L2) as F2. pose proof (local_last _ _ L1) as F3. pose proof (local_first _ _ L2) as F4.
  assert (A : incl (sp_elements (snd p)) (sp_elements (snd q)) \/ incl (sp_elements (snd q)) (sp_elements (snd p))).
  { destruct K as [[K1 K2]|[K1 K2]].
    - rewrite K2 in Q2. destruct (Q2 (snd p) (numbered_in _ P) K1) as [A|[A|A]]; [exfalso; apply A, shares_sym, SH|right; exact A|left; exact A].
    - rewrite K1 in Q1. destruct (Q1 (snd q) (numbered_in _ Q) K2) as [A|[A|A]]; [exfalso; apply A, SH|left; exact A|right; exact A]. }
  destruct A as [A|A]; apply incl_notes in A.
  - apply A in F1. apply (local_bounds _ _ _ L2) in F1. lia.
  - apply A in F2. apply (local_bounds _ _ _ L1) in F2. lia.
Qed.
Lemma items_forwards x : In x items -> it_first x <= it_last x.
Proof. intros X. destruct (items_in _ X) as (p & -> & P & [L1 Q1]). apply (local_range _ _ L1). Qed.
Lemma items_tags x y : In x items -> In y items -> it_kind x = it_kind y -> it_tag x = it_tag y.
Proof. intros X Y. destruct (items_in _ X) as (p & -> & _). destruct (items_in _ Y) as (q & -> & _). cbn. unfold kind_nat. destruct (sp_kind (snd p)), (sp_kind (snd q)); cbn; congruence. Qed.
Lemma items_kinds x : In x items -> it_kind x <= 3.
Proof. intros X. destruct (items_in _ X) as (p & -> & _). cbn. unfold kind_nat. destruct (sp_kind (snd p)); lia. Qed.

(** Lengths. *)
Lemma ql_local s : local n s -> spannerQL voice s = (ends voice (last_note s) - begins voice (first_note s))%Q.
Proof.
  intros L. pose proof (local_range _ _ L) as [R1 R2]. destruct L as (L1 & L2 & _). unfold spannerQL. rewrite (local_elements _ L1), (last_map_some _ L2).
  unfold last_note, first_note, ends, begins in *. destruct (notes s) as [|x l] eqn:E; [contradiction|]. cbn [map hd] in *.
  unfold offset_at, length_at. destruct (nth_error voice (last (x :: l) 0)) eqn:N; [reflexivity|]. apply nth_error_None in N. unfold n in R2. lia.
Qed.

(** Filters and maps over the sorted lists. *)
Lemma sorted_filter {A} (R : A -> A -> Prop) p l : StronglySorted R l -> StronglySorted R (filter p l).
Proof. intros S. induction S as [|x l S IH F]; [constructor|]. cbn [filter]. destruct (p x); [|exact IH]. constructor; [exact IH|]. apply Forall_forall. intros y Y. apply filter_In in Y. rewrite Forall_forall in F. apply F. tauto. Qed.
Lemma filter_map {A B} (f : A -> B) p l : filter p (map f l) = map f (filter (fun x => p (f x)) l).
Proof. induction l as [|x l IH]; [reflexivity|]. cbn [map filter]. destruct (p (f x)); cbn [map]; rewrite IH; reflexivity. Qed.

(** Marks after the objects before [i]. *)
Definition marks_ok (i : nat) (m : marks) : Prop := forall p, In p (numbered sps) ->
  (has_mark (fst p) (mei_mark m) = true <-> is_tremolo (snd p) = false /\ wanted (snd p) = true /\ first_note (snd p) < i) /\
  (has_mark (fst p) (mei_skip m) = true <-> wanted (snd p) = true /\ valid (snd p) = false /\ first_note (snd p) < i).
Lemma has_mark_in id l : has_mark id l = true <-> In id l.
Proof. unfold has_mark. rewrite existsb_exists. split; [intros (x & X & E); apply PeanoNat.Nat.eqb_eq in E; congruence|intros H; exists id; split; [exact H|apply PeanoNat.Nat.eqb_refl]]. Qed.

Lemma start_wanted_spec i p : In p (numbered sps) -> start_wanted voice sps i p = true <-> wanted (snd p) = true /\ first_note (snd p) = i.
Proof.
  intros P. assert (start_wanted voice sps i p = is_first (snd p) i && wanted (snd p)) as -> by reflexivity. rewrite Bool.andb_true_iff. split.
  - intros [H1 H2]. pose proof (wanted_local _ (numbered_in _ P) H2) as L. rewrite (first_is _ _ L) in H1. apply PeanoNat.Nat.eqb_eq in H1. auto.
  - intros [H1 H2]. pose proof (wanted_local _ (numbered_in _ P) H1) as L. rewrite (first_is _ _ L). split; [apply PeanoNat.Nat.eqb_eq|]; assumption.
Qed.

Lemma process_start_eq b m p : process_start (b, m) p = if valid (snd p) then (push b (item_of p), m) else (b, Marks (mei_mark m) (fst p :: mei_skip m)).
Proof. unfold process_start, valid, push, item_of. cbn [fst snd it_tag it_id]. destruct (sp_kind (snd p)); reflexivity. Qed.
Lemma process_starts : forall l b m, fold_left process_start l (b, m) =
  (fold_left push (map item_of (filter (fun p => valid (snd p)) l)) b, Marks (mei_mark m) (rev (map fst (filter (fun p => negb (valid (snd p))) l)) ++ mei_skip m)).
Proof.
  induction l as [|p l IH]; intros b m; [destruct m; reflexivity|]. cbn [fold_left filter]. rewrite process_start_eq. destruct (valid (snd p)); cbn [negb]; rewrite IH; cbn [map fold_left rev mei_mark mei_skip]; [reflexivity|]. rewrite <- app_assoc. reflexivity.
Qed.
Lemma process_ends_none strict m : forall l, fold_left (process_end strict m) l None = None.
Proof. induction l; [reflexivity|assumption]. Qed.
Lemma process_ends strict m : forall l b, fold_left (process_end strict m) l (Some b) = close_all strict (map it_tag (map item_of (filter (fun p => negb (has_mark (fst p) (mei_skip m))) l))) b.
Proof.
  induction l as [|p l IH]; intros b; [reflexivity|]. cbn [fold_left filter]. unfold process_end at 2. destruct (has_mark (fst p) (mei_skip m)); cbn [negb]; [apply IH|].
  cbn [map close_all]. unfold item_of at 1. cbn [it_tag]. destruct (tb_end strict (tag_of (sp_kind (snd p))) b); [apply IH|apply process_ends_none].
Qed.

(** One object of the voice. *)
Variable strict : bool.
Hypothesis heads : strict = true -> forall s t, In s sps -> In t sps -> local n s -> local n t -> last_note s = last_note t -> first_note s < first_note t -> (begins voice (first_note s) < begins voice (first_note t))%Q.

Lemma ends_mono i j : i <= j -> j < n -> (ends voice i <= ends voice j)%Q.
Proof.
  intros H J. destruct (PeanoNat.Nat.eq_dec i j) as [->|N]; [lra|]. destruct (wf_time _ _ WF) as [T1 T2]. assert (i < j) as L by lia. pose proof (T2 i j L J). pose proof (T1 j J). lra.
Qed.
Lemma begins_mono i j : i <= j -> j < n -> (begins voice i <= begins voice j)%Q.
Proof.
  intros H J. destruct (PeanoNat.Nat.eq_dec i j) as [->|N]; [lra|]. destruct (wf_time _ _ WF) as [T1 T2]. assert (i < j) as L by lia. pose proof (T2 i j L J). assert (i < length voice) as Li by (unfold n in J; lia). pose proof (T1 i Li). lra.
Qed.
Lemma kind_le s t : (kind_number s <= kind_number t)%Q <-> kind_nat s <= kind_nat t.
Proof. unfold kind_number, kind_nat. destruct (sp_kind s), (sp_kind t); split; intros H; try lia; try lra; exfalso; (lia || lra). Qed.

Lemma one_object i b m : i < n -> state items i b -> marks_ok i m -> exists b' m', emit_object voice sps strict (Some (b, m)) i = Some (b', m') /\ state items (S i) b' /\ marks_ok (S i) m'.
Proof.
  intros Hi ST MK. unfold emit_object, getOrderedStarts.
  set (out := filter (start_wanted voice sps i) (numbered sps)).
  set (starts := sort_by (descending (fun p => spannerQL voice (snd p))) (sort_by (descending (fun p => kind_number (snd p))) out)).
  set (m1 := Marks (map fst (filter (fun p => negb (is_tremolo (snd p))) out) ++ mei_mark m) (mei_skip m)).
  assert (PS : Permutation starts out) by (unfold starts; rewrite !sort_perm; reflexivity).
  assert (OUT : forall p, In p out <-> In p (numbered sps) /\ wanted (snd p) = true /\ first_note (snd p) = i).
  { intros p. unfold out. rewrite filter_In. split; [intros [H1 H2]; apply start_wanted_spec in H2; tauto|intros (H1 & H2 & H3); split; [exact H1|apply start_wanted_spec; auto]]. }
  assert (MK1 : forall p, In p (numbered sps) -> (has_mark (fst p) (mei_mark m1) = true <-> is_tremolo (snd p) = false /\ wanted (snd p) = true /\ first_note (snd p) < S i)).
  { intros p P. cbn [m1 mei_mark]. rewrite has_mark_in, in_app_iff, <- (has_mark_in _ (mei_mark m)), (proj1 (MK p P)), in_map_iff. split.
    - intros [(q & E & Q)|H]; [|intuition lia]. apply filter_In in Q. destruct Q as [Q1 Q2]. apply OUT in Q1. destruct Q1 as (Q3 & Q4 & Q5). assert (q = p) as -> by (apply numbered_same; auto). apply Bool.negb_true_iff in Q2. intuition lia.
    - intros (H1 & H2 & H3). destruct (PeanoNat.Nat.eq_dec (first_note (snd p)) i) as [E|N]; [left; exists p; split; [reflexivity|]; apply filter_In; split; [apply OUT; auto|apply Bool.negb_true_iff; exact H1]|right; intuition lia]. }
  rewrite process_starts. set (m2 := Marks (mei_mark m1) _).
  assert (MK2 : marks_ok (S i) m2).
  { intros p P. split; [cbn [m2 mei_mark]; apply MK1; exact P|]. cbn [m2 mei_skip m1]. rewrite has_mark_in, in_app_iff, <- in_rev, <- (has_mark_in _ (mei_skip m)), (proj2 (MK p P)), in_map_iff. split.
    - intros [(q & E & Q)|H]; [|intuition lia]. apply filter_In in Q. destruct Q as [Q1 Q2]. apply (Permutation_in _ PS), OUT in Q1. destruct Q1 as (Q3 & Q4 & Q5). assert (q = p) as -> by (apply numbered_same; auto). apply Bool.negb_true_iff in Q2. intuition lia.
    - intros (H1 & H2 & H3). destruct (PeanoNat.Nat.eq_dec (first_note (snd p)) i) as [E|N]; [left; exists p; split; [reflexivity|]; apply filter_In; split; [apply (Permutation_in _ (Permutation_sym PS)), OUT; auto|apply Bool.negb_true_iff; exact H2]|right; intuition lia]. }
  rewrite process_ends. set (es0 := filter _ (getOrderedEnds _ _ _ _)).
  assert (EW : forall p, In p (numbered sps) -> end_wanted i m1 p && negb (has_mark (fst p) (mei_skip m2)) = emitted p && (last_note (snd p) =? i)).
  { intros p P. apply Bool.eq_true_iff_eq. rewrite !Bool.andb_true_iff, Bool.negb_true_iff, PeanoNat.Nat.eqb_eq. unfold end_wanted, emitted. rewrite !Bool.andb_true_iff. pose proof (proj2 (MK2 p P)) as SK. pose proof (MK1 p P) as M1. split.
    - intros [[H1 H2] H3]. assert (W : wanted (snd p) = true). { unfold is_tremolo, wanted in *. destruct (sp_kind (snd p)); [apply M1 in H2; tauto|apply M1 in H2; tauto|exact H2]. }
      pose proof (wanted_local _ (numbered_in _ P) W) as L. rewrite (last_is _ _ L) in H1. apply PeanoNat.Nat.eqb_eq in H1. pose proof (local_range _ _ L) as R. repeat split; auto.
      destruct (valid (snd p)) eqn:V; [reflexivity|]. assert (has_mark (fst p) (mei_skip m2) = true) by (apply SK; repeat split; [exact W|lia]). congruence.
    - intros [[W V] H]. pose proof (wanted_local _ (numbered_in _ P) W) as L. pose proof (local_range _ _ L) as R. rewrite (last_is _ _ L). repeat split; auto; [apply PeanoNat.Nat.eqb_eq; exact H| |].
      + unfold is_tremolo, wanted in M1, W. destruct (sp_kind (snd p)); [apply M1; repeat split; [exact W|lia]|apply M1; repeat split; [exact W|lia]|exact W].
      + destruct (has_mark (fst p) (mei_skip m2)); [|reflexivity]. destruct SK as [SK _]. specialize (SK eq_refl). destruct SK as (_ & SK & _). congruence. }
  assert (PE : Permutation es0 (filter (fun p => emitted p && (last_note (snd p) =? i)) (numbered sps))).
  { unfold es0, getOrderedEnds. etransitivity; [apply perm_filter; rewrite !sort_perm; reflexivity|]. rewrite filter_filter. apply Permutation_refl'. apply filter_ext_in. exact EW. }
  assert (ES : forall p, In p es0 -> In p (numbered sps) /\ local n (snd p) /\ last_note (snd p) = i).
  { intros p P. apply (Permutation_in _ PE), filter_In in P. destruct P as [P Q]. apply Bool.andb_true_iff in Q. destruct Q as [Q1 Q2]. apply PeanoNat.Nat.eqb_eq in Q2. repeat split; auto; apply (printed_spec p P) in Q1; apply Q1. }
  destruct (step items items_laminar items_forwards items_tags items_kinds strict i b (map item_of (filter (fun p => valid (snd p)) starts)) (map item_of es0) ST) as (b' & B1 & B2).
  - unfold items. rewrite filter_map. apply Permutation_map. etransitivity; [apply perm_filter; exact PS|]. unfold out. rewrite !filter_filter. apply Permutation_refl'. apply filter_ext_in. intros p P. apply Bool.eq_true_iff_eq. rewrite !Bool.andb_true_iff, (start_wanted_spec i p P). unfold emitted. rewrite Bool.andb_true_iff. cbn [item_of it_first]. rewrite PeanoNat.Nat.eqb_eq. tauto.
  - assert (SS := sorted_filter _ (fun p => valid (snd p)) _ (two_sorts_desc (fun p : nat * spanner => spannerQL voice (snd p)) (fun p => kind_number (snd p)) out)). fold starts in SS.
    eapply sorted_map; [|exact SS]. cbn beta. intros p q P Q [H1 H2]. unfold start_ord. cbn [item_of it_last it_kind].
    apply filter_In in P, Q. destruct P as [P _], Q as [Q _]. apply (Permutation_in _ PS), OUT in P, Q. destruct P as (P1 & P2 & P3), Q as (Q1 & Q2 & Q3).
    pose proof (wanted_local _ (numbered_in _ P1) P2) as LP. pose proof (wanted_local _ (numbered_in _ Q1) Q2) as LQ. rewrite (ql_local _ LP), (ql_local _ LQ), P3, Q3 in H1, H2.
    destruct (Compare_dec.lt_eq_lt_dec (last_note (snd p)) (last_note (snd q))) as [[C|C]|C]; [exfalso| |left; exact C].
    + pose proof (wf_tail _ _ WF (snd p) (snd q) (numbered_in _ P1) (numbered_in _ Q1) LP LQ (eq_trans P3 (eq_sym Q3)) C). lra.
    + right. split; [exact C|]. apply kind_le. apply H2. rewrite C. reflexivity.
  - unfold items. rewrite filter_map. apply Permutation_map. rewrite PE, filter_filter. reflexivity.
  - intros HS. unfold es0, getOrderedEnds in *. match goal with |- context [sort_by _ (sort_by _ ?l)] => assert (SS := two_sorts_asc (fun p : nat * spanner => spannerQL voice (snd p)) (fun p => kind_number (snd p)) l) end.
    eapply sorted_map; [|apply sorted_filter; exact SS]. cbn beta. intros p q P Q [H1 H2]. unfold end_ord. cbn [item_of it_first it_kind].
    apply ES in P, Q. destruct P as (P1 & LP & P3), Q as (Q1 & LQ & Q3). rewrite (ql_local _ LP), (ql_local _ LQ), P3, Q3 in H1, H2.
    destruct (Compare_dec.lt_eq_lt_dec (first_note (snd p)) (first_note (snd q))) as [[C|C]|C]; [exfalso| |left; exact C].
    + pose proof (heads HS (snd p) (snd q) (numbered_in _ P1) (numbered_in _ Q1) LP LQ (eq_trans P3 (eq_sym Q3)) C). lra.
    + right. split; [exact C|]. apply kind_le. apply H2. rewrite C. reflexivity.
  - exists b', m2. rewrite B1. auto.
Qed.

Lemma whole : exists c, makeLayer voice sps strict = Some c /\ flat_map leaves c = seq 0 n /\ Permutation (flat_map elements c) (map content items).
Proof.
  assert (H : forall k, k <= n -> exists b m, fold_left (emit_object voice sps strict) (seq 0 k) (Some (Builder [] [], Marks [] [])) = Some (b, m) /\ state items k b /\ marks_ok k m).
  { induction k as [|k IH]; intros K.
    - exists (Builder [] []), (Marks [] []). split; [reflexivity|]. split; [apply state_0|]. intros p P. split; split; try discriminate; intros H; exfalso; destruct H as (_ & _ & H); lia.
    - destruct IH as (b & m & F & S & M); [lia|]. rewrite seq_S, fold_left_app, F. cbn [fold_left plus]. apply one_object; auto. }
  destruct (H n (le_n n)) as (b & m & F & S & M). unfold makeLayer. fold n. rewrite F. destruct (state_end items n b) as (O & L & P); [|exact S|].
  - intros x X. destruct (items_in _ X) as (p & -> & _ & [LC _]). apply (local_range _ _ LC).
  - destruct b as [op rt]. cbn [open_ root] in *. subst op. exists rt. auto.
Qed.
End proof.

(** ** Statements *)

(** The objects from the first to the last note of a spanner. *)
Definition stretch (s : spanner) : list nat := seq (first_note s) (S (last_note s) - first_note s).
(** The layer has all objects in their order, and for each spanner to be printed one element, which
    has the objects from its first to its last note; and no other elements. *)
Definition nested_rightly (voice : list object) (sps : list spanner) (c : list node) : Prop :=
  flat_map leaves c = seq 0 (length voice) /\
  NoDup (map (fun e => snd (fst e)) (flat_map elements c)) /\
  forall t id l, In (t, id, l) (flat_map elements c) <->
    exists s, nth_error sps id = Some s /\ printed (length voice) sps s /\ t = tag_of (sp_kind s) /\ l = stretch s.

Lemma nested_from (voice : list object) (sps : list spanner) c : well_formed voice sps -> flat_map leaves c = seq 0 (length voice) -> Permutation (flat_map elements c) (map content (items voice sps)) -> nested_rightly voice sps c.
Proof.
  intros WF L P. split; [exact L|]. split.
  - rewrite P, map_map. unfold items. rewrite map_map. cbn [content fst snd it_id item_of].
    assert (NoDup (map fst (numbered sps))) as ND.
    { unfold numbered. assert (forall (l : list spanner) k, map fst (combine (seq k (length l)) l) = seq k (length l)) as E by (intros l; induction l as [|x l IH]; intros k; [reflexivity|]; cbn [length seq combine map fst]; f_equal; apply (IH (S k))). rewrite E. apply seq_NoDup. }
    clear -ND. induction (numbered sps) as [|p l IH]; [constructor|]. cbn [map] in ND. inversion ND; subst. cbn [filter]. destruct (emitted voice sps p); [|apply IH; assumption]. cbn [map]. constructor; [|apply IH; assumption].
    intros X. apply H1. apply in_map_iff in X. destruct X as (q & E & Q). apply filter_In in Q. apply in_map_iff. exists q. tauto.
  - intros t id l. split.
    + intros H. apply (Permutation_in _ P) in H. apply in_map_iff in H. destruct H as (x & E & X). destruct (items_in voice sps WF x X) as (p & -> & P1 & P2). unfold content in E. cbn [item_of it_tag it_id it_first it_last] in E. injection E as <- <- <-.
      exists (snd p). split; [apply (numbered_nth voice); exact P1|]. split; [exact P2|]. split; reflexivity.
    + intros (s & N & PR & -> & ->). apply (Permutation_in _ (Permutation_sym P)). apply in_map_iff. exists (item_of (id, s)). split; [reflexivity|]. unfold items. apply in_map_iff. exists (id, s). split; [reflexivity|]. assert (In (id, s) (numbered sps)) as I by (apply (numbered_nth voice); exact N). apply filter_In. split; [exact I|]. apply (printed_spec voice sps WF (id, s) I). exact PR.
Qed.

(** Beams, tuplets and tremolos of a layer are nested rightly; a tuplet that crosses a beam is the
    only spanner of the layer without an element. *)
Theorem C88_nesting_partial : forall voice sps, well_formed voice sps ->
  exists c, makeLayer voice sps false = Some c /\ nested_rightly voice sps c.
Proof.
  intros voice sps WF. destruct (whole voice sps WF false) as (c & M & L & P); [discriminate|]. exists c. split; [exact M|]. apply nested_from; assumption.
Qed.
Print Assumptions C88_nesting_partial.

(** The names given when elements are closed are right too, if of two spanners with the same last
    note, the one with more notes starts earlier in time. *)
Theorem C88_names_partial : forall voice sps, well_formed voice sps ->
  (forall s t, In s sps -> In t sps -> local (length voice) s -> local (length voice) t -> last_note s = last_note t -> first_note s < first_note t -> (begins voice (first_note s) < begins voice (first_note t))%Q) ->
  exists c, makeLayer voice sps true = Some c /\ nested_rightly voice sps c.
Proof.
  intros voice sps WF H. destruct (whole voice sps WF true) as (c & M & L & P); [intros _; exact H|]. exists c. split; [exact M|]. apply nested_from; assumption.
Qed.
Print Assumptions C88_names_partial.

(** A beam over two tuplets, the second with a tremolo; a tuplet that crosses a beam; a beam that
    goes on in the next measure. *)
Definition layer_voice : list object := map (fun k => Object (Z.of_nat k # 3) (1 # 3)) (seq 0 12).
Definition layer_spanners : list spanner :=
  [Spanner Beam (map Some [0; 1; 2; 3; 4; 5]); Spanner Tuplet (map Some [0; 1; 2]); Spanner Tuplet (map Some [3; 4; 5]); Spanner (Tremolo 3) (map Some [3; 4]);
   Spanner Beam (map Some [6; 7]); Spanner Tuplet (map Some [7; 8; 9]); Spanner Beam [Some 10; Some 11; None]].

(** A check for examples. *)
Fixpoint rising (l : list nat) : bool := match l with [] => true | x :: r => forallb (Nat.ltb x) r && rising r end.
Lemma local_check n s : in_measure s && negb (length (notes s) =? 0) && rising (notes s) && forallb (fun i => i <? n) (notes s) = true -> local n s.
Proof.
  rewrite !Bool.andb_true_iff, Bool.negb_true_iff, in_measure_spec. intros (((H1 & H2) & H3) & H4). split; [exact H1|]. split; [intros E; rewrite E in H2; discriminate H2|]. split.
  - clear -H3. induction (notes s) as [|x l IH]; [constructor|]. cbn [rising] in H3. apply Bool.andb_true_iff in H3. destruct H3 as [H1 H2]. constructor; [auto|]. apply Forall_forall. intros y Y. rewrite forallb_forall in H1. apply PeanoNat.Nat.ltb_lt. auto.
  - apply Forall_forall. intros y Y. rewrite forallb_forall in H4. apply PeanoNat.Nat.ltb_lt. auto.
Qed.

Example C88_nonvacuous : well_formed layer_voice layer_spanners /\ makeLayer layer_voice layer_spanners true =
  Some [NElement TagBeam 0 [NElement TagTuplet 1 [NObject 0; NObject 1; NObject 2]; NElement TagTuplet 2 [NElement TagFTrem 3 [NObject 3; NObject 4]; NObject 5]];
        NElement TagBeam 4 [NObject 6; NObject 7]; NObject 8; NObject 9; NObject 10; NObject 11].
Proof.
  split; [|vm_compute; reflexivity]. split.
  - intros s I. do 6 (destruct I as [<-|I]; [left; apply local_check; vm_compute; reflexivity|]). destruct I as [<-|[]]. right. split; [right; right; left; reflexivity|intros []].
  - intros s I. repeat (destruct I as [<-|I]; [first [solve [intros []]|intros _; reflexivity]|]). destruct I.
  - assert (N : forall i, i < length layer_voice -> nth_error layer_voice i = Some (Object (Z.of_nat i # 3) (1 # 3))).
    { intros i Hi. unfold layer_voice. rewrite (map_nth_error _ i (seq 0 12) (d := i)); [reflexivity|]. cbn in Hi. do 12 (destruct i as [|i]; [reflexivity|]). lia. }
    split.
    + intros i Hi. unfold begins, ends. rewrite (N i Hi). cbn [ob_offset ob_length]. lra.
    + intros i j H Hj. unfold begins, ends. assert (i < length layer_voice) as Hi by lia. rewrite (N i Hi), (N j Hj). cbn [ob_offset ob_length]. unfold Qle, Qplus. cbn [Qnum Qden]. lia.
  - intros i j s t NE Ns Nt Ks Kt (x & X & Y). do 7 (destruct i as [|i]; [injection Ns as <-; try discriminate Ks; do 7 (destruct j as [|j]; [injection Nt as <-; try discriminate Kt; try (exfalso; apply NE; reflexivity); cbn in X, Y; lia|]); destruct j; discriminate Nt|]); destruct i; discriminate Ns.
  - intros s t I J _ _ (C1 & C2 & C3). repeat (destruct I as [<-|I]; [repeat (destruct J as [<-|J]; [vm_compute in C1, C2, C3; first [exfalso; lia|split; [exists 7; cbn; auto|right; split; reflexivity]|split; [exists 7; cbn; auto|left; split; reflexivity]]|]); destruct J|]). destruct I.
  - intros s t I J _ _ C1 C2. repeat (destruct I as [<-|I]; [repeat (destruct J as [<-|J]; [vm_compute in C1, C2; first [discriminate C1|exfalso; lia|vm_compute; reflexivity]|]); destruct J|]). destruct I.
Qed.

(** The claim for all layers.  It is false. *)
Definition always_nested : Prop := forall voice sps, in_time voice -> (forall s, In s sps -> local (length voice) s) -> exists c, makeLayer voice sps false = Some c /\ nested_rightly voice sps c.

(** A tremolo that crosses a beam: the beam has a note too few, the tremolo one too many.  A beam with a
    grace note at its end, after a tuplet that starts with it: the tuplet has the grace note, and
    the beam is inside.  A tuplet and a beam that share no notes but interleave.  Closing with the
    wrong name, if grace notes start a beam and a tuplet begins after them. *)
Theorem C88_refuted :
  makeLayer (map (fun k => Object (Z.of_nat k # 1) (1 # 1)) (seq 0 3)) [Spanner Beam (map Some [0; 1]); Spanner (Tremolo 3) (map Some [1; 2])] false =
    Some [NElement TagBeam 0 [NObject 0; NElement TagFTrem 1 [NObject 1]; NObject 2]] /\
  makeLayer [Object (0 # 1) (1 # 3); Object (1 # 3) (1 # 3); Object (2 # 3) (1 # 3); Object (1 # 1) (0 # 1)] [Spanner Beam (map Some [0; 1; 2; 3]); Spanner Tuplet (map Some [0; 1; 2])] false =
    Some [NElement TagTuplet 1 [NElement TagBeam 0 [NObject 0; NObject 1; NObject 2]; NObject 3]] /\
  makeLayer (map (fun k => Object (Z.of_nat k # 1) (1 # 1)) (seq 0 4)) [Spanner Tuplet (map Some [0; 2]); Spanner Beam (map Some [1; 3])] false =
    Some [NElement TagTuplet 0 [NObject 0; NElement TagBeam 1 [NObject 1; NObject 2]; NObject 3]] /\
  makeLayer [Object (0 # 1) (0 # 1); Object (0 # 1) (1 # 3); Object (1 # 3) (1 # 3)] [Spanner Beam (map Some [0; 1; 2]); Spanner Tuplet (map Some [1; 2])] true = None /\
  ~ always_nested.
Proof.
  split; [vm_compute; reflexivity|]. split; [vm_compute; reflexivity|]. split; [vm_compute; reflexivity|]. split; [vm_compute; reflexivity|].
  intros H. destruct (H (map (fun k => Object (Z.of_nat k # 1) (1 # 1)) (seq 0 3)) [Spanner Beam (map Some [0; 1]); Spanner (Tremolo 3) (map Some [1; 2])]) as (c & M & _ & _ & N).
  - split.
    + intros i Hi. cbn in Hi. destruct i as [|[|[|i]]]; [vm_compute; discriminate..|lia].
    + intros i j Hi Hj. cbn in Hj. destruct j as [|[|[|j]]]; [lia| | |lia]; destruct i as [|[|i]]; try lia; vm_compute; discriminate.
  - intros s [<-|[<-|[]]]; apply local_check; vm_compute; reflexivity.
  - vm_compute in M. injection M as <-. destruct (N TagFTrem 1 [1]) as [N1 _]. destruct N1 as (s & E & _ & _ & S); [right; left; reflexivity|]. injection E as <-. discriminate S.
Qed.
Print Assumptions C88_refuted.
