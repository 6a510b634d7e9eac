(** The links of a file that reads make a forest: the hypotheses of StrandProofs hold. *)
From Coq Require Import Lia Permutation Sorted.
From Verif Require Import PyStr PyStrProofs LayoutModel TextModel SpineModel SpineProofs SpineProofs2 LinkProofs BarModel RhythmModel StrandModel StrandProofs.

(** ** The links of a line *)

Definition succs (links : list (nat * nat)) (a : nat) : list nat := map snd (filter (fun l => fst l =? a) links).
Definition preds (links : list (nat * nat)) (b : nat) : list nat := map fst (filter (fun l => snd l =? b) links).
Lemma succs_in links a b : In b (succs links a) <-> In (a, b) links.
Proof.
  unfold succs. rewrite in_map_iff. split.
  - intros ([x y] & <- & I). apply filter_In in I. destruct I as (I & E). cbn in E. apply Nat.eqb_eq in E. subst. exact I.
  - intros I. exists (a, b). split; [reflexivity|]. apply filter_In. split; [exact I|]. apply Nat.eqb_refl.
Qed.
Lemma preds_in links a b : In a (preds links b) <-> In (a, b) links.
Proof.
  unfold preds. rewrite in_map_iff. split.
  - intros ([x y] & <- & I). apply filter_In in I. destruct I as (I & E). cbn in E. apply Nat.eqb_eq in E. subst. exact I.
  - intros I. exists (a, b). split; [reflexivity|]. apply filter_In. split; [exact I|]. apply Nat.eqb_refl.
Qed.

Lemma rule_range i j ts links adds n : rule i j ts links adds n ->
  (forall a b, In (a, b) links -> i <= a < i + length ts /\ j <= b < j + n) /\ (forall b, In b adds -> j <= b < j + n).
Proof.
  induction 1 as [i j|i j t ts links adds n NM R (IH1 & IH2)|i j ts links adds n R (IH1 & IH2)|i j ts links adds n R (IH1 & IH2)|i j ts links adds n R (IH1 & IH2)
                 |i j ts links adds n R (IH1 & IH2)|i j k ts links adds n K HD R (IH1 & IH2)]; cbn [length In]; split; try (intros; contradiction).
  - intros a b [E|I]; [injection E as <- <-; lia|]. specialize (IH1 a b I). lia.
  - intros b I. specialize (IH2 b I). lia.
  - intros a b [E|[E|I]]; [injection E as <- <-; lia|injection E as <- <-; lia|]. specialize (IH1 a b I). lia.
  - intros b I. specialize (IH2 b I). lia.
  - intros a b [E|I]; [injection E as <- <-; lia|]. specialize (IH1 a b I). lia.
  - intros b [<-|I]; [lia|]. specialize (IH2 b I). lia.
  - intros a b I. specialize (IH1 a b I). lia.
  - intros b I. specialize (IH2 b I). lia.
  - intros a b [E|[E|I]]; [injection E as <- <-; lia|injection E as <- <-; lia|]. specialize (IH1 a b I). lia.
  - intros b I. specialize (IH2 b I). lia.
  - intros a b I. rewrite app_length, repeat_length. apply in_app_iff in I. destruct I as [I|I].
    + apply in_map_iff in I. destruct I as (d & E & D). apply in_seq in D. injection E as <- <-. lia.
    + specialize (IH1 a b I). lia.
  - intros b I. specialize (IH2 b I). lia.
Qed.

Definition V : option str := Some (S_ "*v").
Definition T : option str := Some (S_ "*-").
Definition reads_at (tok : nat -> option str) (i : nat) (ts : list str) : Prop := forall d, d < length ts -> tok (d + i) = nth_error ts d.
Lemma reads_tail tok i t ts : reads_at tok i (t :: ts) -> tok i = Some t /\ reads_at tok (1 + i) ts.
Proof.
  intros R. split; [apply (R 0); cbn; lia|]. intros d D. replace (d + (1 + i)) with (S d + i) by lia. rewrite R by (cbn; lia). reflexivity.
Qed.
Lemma reads_run tok i k ts : reads_at tok i (repeat (S_ "*v") k ++ ts) -> (forall d, d < k -> tok (d + i) = V) /\ reads_at tok (k + i) ts.
Proof.
  intros R. split.
  - intros d D. rewrite R by (rewrite app_length, repeat_length; lia). rewrite nth_error_app1 by (rewrite repeat_length; lia). apply nth_error_repeat. exact D.
  - intros d D. replace (d + (k + i)) with ((k + d) + i) by lia. rewrite R by (rewrite app_length, repeat_length; lia). rewrite nth_error_app2 by (rewrite repeat_length; lia). rewrite repeat_length. f_equal. lia.
Qed.

(** Two tokens linked to one are neighbours in a run of merges. *)
Lemma rule_sources i j ts links adds n : rule i j ts links adds n -> forall tok, reads_at tok i ts ->
  forall a a' b, In (a, b) links -> In (a', b) links -> a < a' -> tok a' = V /\ tok (a' - 1) = V.
Proof.
  induction 1 as [i j|i j t ts links adds n NM R IH|i j ts links adds n R IH|i j ts links adds n R IH|i j ts links adds n R IH
                 |i j ts links adds n R IH|i j k ts links adds n K HD R IH]; intros tok RT a a' b A A' LT;
    try (destruct (rule_range _ _ _ _ _ _ R) as (RG & _)).
  - contradiction.
  - apply reads_tail in RT. destruct RT as (_ & RT). destruct A as [A|A], A' as [A'|A']; try (apply pair_equal_spec in A; destruct A); try (apply pair_equal_spec in A'; destruct A'); try lia;
      try (apply RG in A; lia); try (apply RG in A'; lia). apply (IH tok RT a a' b); assumption.
  - apply reads_tail in RT. destruct RT as (_ & RT). destruct A as [A|[A|A]], A' as [A'|[A'|A']]; try (apply pair_equal_spec in A; destruct A); try (apply pair_equal_spec in A'; destruct A'); try lia;
      try (apply RG in A; lia); try (apply RG in A'; lia). apply (IH tok RT a a' b); assumption.
  - apply reads_tail in RT. destruct RT as (_ & RT). destruct A as [A|A], A' as [A'|A']; try (apply pair_equal_spec in A; destruct A); try (apply pair_equal_spec in A'; destruct A'); try lia;
      try (apply RG in A; lia); try (apply RG in A'; lia). apply (IH tok RT a a' b); assumption.
  - apply reads_tail in RT. destruct RT as (_ & RT). apply (IH tok RT a a' b); assumption.
  - apply reads_tail in RT. destruct RT as (_ & RT). apply reads_tail in RT. destruct RT as (_ & RT).
    destruct A as [A|[A|A]], A' as [A'|[A'|A']]; try (apply pair_equal_spec in A; destruct A); try (apply pair_equal_spec in A'; destruct A'); try lia;
      try (apply RG in A; lia); try (apply RG in A'; lia). apply (IH tok RT a a' b); assumption.
  - apply reads_run in RT. destruct RT as (RV & RT). apply in_app_iff in A. apply in_app_iff in A'.
    destruct A as [A|A], A' as [A'|A'].
    + apply in_map_iff in A. apply in_map_iff in A'. destruct A as (d & E & D), A' as (d' & E' & D'). apply in_seq in D, D'. injection E as <- <-. injection E' as <-.
      split; [apply RV; lia|]. replace (d' + i - 1) with ((d' - 1) + i) by lia. apply RV. lia.
    + apply in_map_iff in A. destruct A as (d & E & D). injection E as <- <-. apply RG in A'. lia.
    + apply in_map_iff in A'. destruct A' as (d & E & D). injection E as <- <-. apply RG in A. lia.
    + apply (IH tok RT a a' b); assumption.
Qed.
Lemma rule_nodup i j ts links adds n : rule i j ts links adds n -> NoDup links /\ NoDup adds.
Proof.
  induction 1 as [i j|i j t ts links adds n NM R (IH & IHA)|i j ts links adds n R (IH & IHA)|i j ts links adds n R (IH & IHA)|i j ts links adds n R (IH & IHA)
                 |i j ts links adds n R (IH & IHA)|i j k ts links adds n K HD R (IH & IHA)];
    try (destruct (rule_range _ _ _ _ _ _ R) as (RG & RA)); split; try assumption; repeat constructor; try assumption; cbn [In];
    try (intros [E|I]; [injection E as E; lia|apply RG in I; lia]); try (intros I; apply RG in I; lia); try (intros I; apply RA in I; lia); try (intros []).
  apply NoDup_app_intro; [|exact IH|].
  - apply FinFun.Injective_map_NoDup; [|apply seq_NoDup]. intros x y E. injection E as E. lia.
  - intros [x y] A B. apply in_map_iff in A. destruct A as (d & E & D). injection E as <- <-. apply RG in B. lia.
Qed.
Lemma rule_merge_one i j ts links adds n : rule i j ts links adds n -> forall tok, reads_at tok i ts ->
  forall a b b', tok a = V -> In (a, b) links -> In (a, b') links -> b = b'.
Proof.
  induction 1 as [i j|i j t ts links adds n NM R IH|i j ts links adds n R IH|i j ts links adds n R IH|i j ts links adds n R IH
                 |i j ts links adds n R IH|i j k ts links adds n K HD R IH]; intros tok RT a b b' TV A A';
    try (destruct (rule_range _ _ _ _ _ _ R) as (RG & _)).
  - contradiction.
  - apply reads_tail in RT. destruct RT as (_ & RT). destruct A as [A|A], A' as [A'|A']; try (apply pair_equal_spec in A; destruct A); try (apply pair_equal_spec in A'; destruct A'); try lia;
      try (apply RG in A; lia); try (apply RG in A'; lia). apply (IH tok RT a b b'); assumption.
  - apply reads_tail in RT. destruct RT as (RI & RT). destruct (Nat.eq_dec a i) as [->|NE]; [rewrite RI in TV; discriminate|].
    destruct A as [A|[A|A]], A' as [A'|[A'|A']]; try (apply pair_equal_spec in A; destruct A); try (apply pair_equal_spec in A'; destruct A'); try lia. apply (IH tok RT a b b'); assumption.
  - apply reads_tail in RT. destruct RT as (_ & RT). destruct A as [A|A], A' as [A'|A']; try (apply pair_equal_spec in A; destruct A); try (apply pair_equal_spec in A'; destruct A'); try lia;
      try (apply RG in A; lia); try (apply RG in A'; lia). apply (IH tok RT a b b'); assumption.
  - apply reads_tail in RT. destruct RT as (_ & RT). apply (IH tok RT a b b'); assumption.
  - apply reads_tail in RT. destruct RT as (RI & RT). apply reads_tail in RT. destruct RT as (RJ & RT).
    destruct A as [A|[A|A]], A' as [A'|[A'|A']]; try (apply pair_equal_spec in A; destruct A); try (apply pair_equal_spec in A'; destruct A'); try lia;
      try (apply RG in A; lia); try (apply RG in A'; lia). apply (IH tok RT a b b'); assumption.
  - apply reads_run in RT. destruct RT as (RV & RT). apply in_app_iff in A. apply in_app_iff in A'.
    destruct A as [A|A], A' as [A'|A'].
    + apply in_map_iff in A. apply in_map_iff in A'. destruct A as (d & E & D), A' as (d' & E' & D'). injection E as _ <-. injection E' as _ <-. reflexivity.
    + apply in_map_iff in A. destruct A as (d & E & D). apply in_seq in D. injection E as <- <-. apply RG in A'. lia.
    + apply in_map_iff in A'. destruct A' as (d & E & D). apply in_seq in D. injection E as <- <-. apply RG in A. lia.
    + apply (IH tok RT a b b'); assumption.
Qed.
Lemma rule_first_source i j ts links adds n : rule i j ts links adds n -> forall b a0 a, hd_error (preds links b) = Some a0 -> In (a, b) links -> a0 <= a.
Proof.
  induction 1 as [i j|i j t ts links adds n NM R IH|i j ts links adds n R IH|i j ts links adds n R IH|i j ts links adds n R IH
                 |i j ts links adds n R IH|i j k ts links adds n K HD R IH]; intros b a0 a E A;
    try (destruct (rule_range _ _ _ _ _ _ R) as (RG & _)).
  - contradiction.
  - unfold preds in E. cbn [filter snd] in E. destruct (Nat.eqb_spec j b) as [->|NE].
    + cbn in E. injection E as <-. destruct A as [A|A]; [injection A as <-; lia|apply RG in A; lia].
    + destruct A as [A|A]; [injection A as _ <-; congruence|]. eapply IH; eassumption.
  - unfold preds in E. cbn [filter snd] in E. destruct (Nat.eqb_spec j b) as [->|NE].
    + cbn in E. injection E as <-. destruct A as [A|[A|A]]; [injection A as <-; lia|injection A as <-; lia|apply RG in A; lia].
    + destruct (Nat.eqb_spec (1 + j) b) as [<-|NE2].
      * cbn in E. injection E as <-. destruct A as [A|[A|A]]; [injection A as <-; lia|injection A as <-; lia|apply RG in A; lia].
      * destruct A as [A|[A|A]]; [injection A as _ <-; congruence|injection A as _ A; lia|]. eapply IH; eassumption.
  - unfold preds in E. cbn [filter snd] in E. destruct (Nat.eqb_spec j b) as [->|NE].
    + cbn in E. injection E as <-. destruct A as [A|A]; [injection A as <-; lia|apply RG in A; lia].
    + destruct A as [A|A]; [injection A as _ <-; congruence|]. eapply IH; eassumption.
  - eapply IH; eassumption.
  - unfold preds in E. cbn [filter snd] in E. destruct (Nat.eqb_spec j b) as [->|NE].
    + cbn in E. injection E as <-. destruct A as [A|[A|A]]; [injection A as <-; lia|injection A as A A2; lia|apply RG in A; lia].
    + destruct (Nat.eqb_spec (1 + j) b) as [<-|NE2].
      * cbn in E. injection E as <-. destruct A as [A|[A|A]]; [injection A as A A2; lia|injection A as <-; lia|apply RG in A; lia].
      * destruct A as [A|[A|A]]; [injection A as _ <-; congruence|injection A as _ A; lia|]. eapply IH; eassumption.
  - destruct (Nat.eq_dec b j) as [->|NE].
    + destruct k as [|k]; [lia|]. unfold preds in E. cbn [seq map app filter snd] in E. rewrite Nat.eqb_refl in E. cbn in E. injection E as <-.
      apply in_app_iff in A. destruct A as [A|A]; [|apply RG in A; lia]. apply in_map_iff in A. destruct A as (d & X & D). injection X as <-. lia.
    + apply in_app_iff in A. destruct A as [A|A]; [apply in_map_iff in A; destruct A as (d & X & D); injection X as _ <-; congruence|].
      apply (IH b a0 a); [|exact A]. unfold preds in *. rewrite filter_app, map_app in E. replace (filter (fun l => snd l =? b) (map (fun d => (d + i, j)) (seq 0 k))) with (@nil (nat * nat)) in E; [exact E|].
      symmetry. clear -NE. induction (seq 0 k) as [|x l IHl]; [reflexivity|]. cbn [map filter snd]. destruct (Nat.eqb_spec j b); [congruence|exact IHl].
Qed.
(** Every place of the next line is a new spine or continues a token. *)
Lemma rule_covers i j ts links adds n : rule i j ts links adds n -> forall tok, reads_at tok i ts -> forall b, j <= b < j + n ->
  (In b adds /\ forall a, ~ In (a, b) links) \/
  (~ In b adds /\ exists a, In (a, b) links /\ tok a <> T /\ (tok a = V -> a = i \/ tok (a - 1) <> V)).
Proof.
  induction 1 as [i j|i j t ts links adds n NM R IH|i j ts links adds n R IH|i j ts links adds n R IH|i j ts links adds n R IH
                 |i j ts links adds n R IH|i j k ts links adds n K HD R IH]; intros tok RT b B;
    try (destruct (rule_range _ _ _ _ _ _ R) as (RG & RA)).
  - lia.
  - apply reads_tail in RT. destruct RT as (RI & RT).
    assert (NT : tok i <> T /\ tok i <> V).
    { rewrite RI. unfold T, V. split; intros E; injection E as ->; apply NM; unfold manipulators; cbn [In]; tauto. }
    destruct (Nat.eq_dec b j) as [->|NE].
    + right. split; [intros I; apply RA in I; lia|]. exists i. split; [left; reflexivity|]. split; [apply NT|auto].
    + destruct (IH tok RT b ltac:(lia)) as [(I & NL)|(NI & a & I & A1 & A2)].
      * left. split; [exact I|]. intros a [E|J]; [injection E as _ E; lia|exact (NL a J)].
      * right. split; [exact NI|]. exists a. split; [right; exact I|]. split; [exact A1|]. intros E. right. destruct (A2 E) as [->|X]; [|exact X]. replace (1 + i - 1) with i by lia. apply NT.
  - apply reads_tail in RT. destruct RT as (RI & RT).
    assert (NT : tok i <> T /\ tok i <> V) by (rewrite RI; split; discriminate).
    destruct (Nat.eq_dec b j) as [->|NE]; [|destruct (Nat.eq_dec b (1 + j)) as [->|NE2]].
    + right. split; [intros I; apply RA in I; lia|]. exists i. split; [left; reflexivity|]. split; [apply NT|auto].
    + right. split; [intros I; apply RA in I; lia|]. exists i. split; [right; left; reflexivity|]. split; [apply NT|auto].
    + destruct (IH tok RT b ltac:(lia)) as [(I & NL)|(NI & a & I & A1 & A2)].
      * left. split; [exact I|]. intros a [E|[E|J]]; [injection E as _ E; lia|injection E as _ E; lia|exact (NL a J)].
      * right. split; [exact NI|]. exists a. split; [right; right; exact I|]. split; [exact A1|]. intros E. right. destruct (A2 E) as [->|X]; [|exact X]. replace (1 + i - 1) with i by lia. apply NT.
  - apply reads_tail in RT. destruct RT as (RI & RT).
    assert (NT : tok i <> T /\ tok i <> V) by (rewrite RI; split; discriminate).
    destruct (Nat.eq_dec b j) as [->|NE]; [|destruct (Nat.eq_dec b (1 + j)) as [->|NE2]].
    + right. split; [intros [E|I]; [lia|apply RA in I; lia]|]. exists i. split; [left; reflexivity|]. split; [apply NT|auto].
    + left. split; [left; reflexivity|]. intros a [E|J]; [injection E as _ E; lia|apply RG in J; lia].
    + destruct (IH tok RT b ltac:(lia)) as [(I & NL)|(NI & a & I & A1 & A2)].
      * left. split; [right; exact I|]. intros a [E|J]; [injection E as _ E; lia|exact (NL a J)].
      * right. split; [intros [E|J]; [lia|exact (NI J)]|]. exists a. split; [right; exact I|]. split; [exact A1|]. intros E. right. destruct (A2 E) as [->|X]; [|exact X]. replace (1 + i - 1) with i by lia. apply NT.
  - apply reads_tail in RT. destruct RT as (RI & RT).
    destruct (IH tok RT b B) as [X|(NI & a & I & A1 & A2)]; [left; exact X|]. right. split; [exact NI|]. exists a. split; [exact I|]. split; [exact A1|].
    intros E. right. destruct (A2 E) as [->|X]; [|exact X]. replace (1 + i - 1) with i by lia. rewrite RI. discriminate.
  - apply reads_tail in RT. destruct RT as (RI & RT). apply reads_tail in RT. destruct RT as (RJ & RT).
    destruct (Nat.eq_dec b j) as [->|NE]; [|destruct (Nat.eq_dec b (1 + j)) as [->|NE2]].
    + right. split; [intros I; apply RA in I; lia|]. exists (1 + i). split; [left; reflexivity|]. rewrite RJ. split; [discriminate|discriminate].
    + right. split; [intros I; apply RA in I; lia|]. exists i. split; [right; left; reflexivity|]. rewrite RI. split; [discriminate|discriminate].
    + destruct (IH tok RT b ltac:(lia)) as [(I & NL)|(NI & a & I & A1 & A2)].
      * left. split; [exact I|]. intros a [E|[E|J]]; [injection E as _ E; lia|injection E as _ E; lia|exact (NL a J)].
      * right. split; [exact NI|]. exists a. split; [right; right; exact I|]. split; [exact A1|]. intros E. right. destruct (A2 E) as [->|X]; [|exact X]. replace (2 + i - 1) with (1 + i) by lia. rewrite RJ. discriminate.
  - apply reads_run in RT. destruct RT as (RV & RT). destruct (Nat.eq_dec b j) as [->|NE].
    + right. split; [intros I; apply RA in I; lia|]. exists i. split; [apply in_or_app; left; apply in_map_iff; exists 0; split; [reflexivity|apply in_seq; lia]|].
      split; [specialize (RV 0 ltac:(lia)); cbn in RV; rewrite RV; discriminate|auto].
    + destruct (IH tok RT b ltac:(lia)) as [(I & NL)|(NI & a & I & A1 & A2)].
      * left. split; [exact I|]. intros a J. apply in_app_iff in J. destruct J as [J|J]; [apply in_map_iff in J; destruct J as (d & E & _); injection E as _ E; lia|exact (NL a J)].
      * right. split; [exact NI|]. exists a. split; [apply in_or_app; right; exact I|]. split; [exact A1|]. intros E. right. destruct (A2 E) as [->|X]; [|exact X].
        exfalso. destruct ts as [|t ts]; [apply RG in I; cbn in I; lia|]. specialize (RT 0 ltac:(cbn; lia)). cbn in RT. cbn [hd_error] in HD. unfold V in E. congruence.
Qed.
(** One new spine for every [*+]. *)
Definition is_add (t : str) : bool := str_eqb t (S_ "*+").
Definition adds_in (ts : list str) : nat := length (filter is_add ts).
Lemma rule_adds i j ts links adds n : rule i j ts links adds n -> length adds = adds_in ts.
Proof.
  unfold adds_in. induction 1 as [i j|i j t ts links adds n NM R IH|i j ts links adds n R IH|i j ts links adds n R IH|i j ts links adds n R IH
                 |i j ts links adds n R IH|i j k ts links adds n K HD R IH]; cbn [filter length] in *; try exact IH; try reflexivity.
  - unfold is_add at 1. destruct (str_eqb t (S_ "*+")) eqn:E; [|exact IH]. apply str_eqb_eq in E. subst. exfalso. apply NM. unfold manipulators. cbn [In]. tauto.
  - change (is_add (S_ "*+")) with true. cbn [length]. rewrite IH. reflexivity.
  - rewrite filter_app. replace (filter is_add (repeat (S_ "*v") k)) with (@nil str); [exact IH|]. clear. induction k; [reflexivity|exact IHk].
Qed.

(** ** The links of a file, as lists *)

Lemma add_links_lists pl nl links : forall g x,
  nextTokens (add_links pl nl links g) x = nextTokens g x ++ (if fst x =? pl then map (pair nl) (succs links (snd x)) else []) /\
  previousTokens (add_links pl nl links g) x = previousTokens g x ++ (if fst x =? nl then map (pair pl) (preds links (snd x)) else []).
Proof.
  unfold add_links. induction links as [|[i j] links IH]; intros g x; cbn [fold_left fst snd].
  - unfold succs, preds. cbn. destruct (fst x =? pl), (fst x =? nl); rewrite !app_nil_r; auto.
  - destruct (IH (makeForwardLink (pl, i) (nl, j) g) x) as (A & B). rewrite A, B. clear A B IH. unfold makeForwardLink. cbn [nextTokens previousTokens].
    unfold ref_eqb, succs, preds. cbn [fst snd filter]. rewrite !(Nat.eqb_sym (snd x)).
    destruct (fst x =? pl) eqn:E1, (fst x =? nl) eqn:E2; cbn [andb]; split; try reflexivity; try rewrite !app_nil_r; try reflexivity;
      try (destruct (i =? snd x); cbn [map]; [rewrite <- app_assoc|]; reflexivity); try (destruct (j =? snd x); cbn [map]; [rewrite <- app_assoc|]; reflexivity).
Qed.

Lemma adjacent_next_unique lines pl nl nl' p q p' q' : adjacent_lines lines pl nl p q -> adjacent_lines lines pl nl' p' q' -> nl = nl' /\ p = p' /\ q = q'.
Proof.
  intros (A1 & A2 & A3 & A4 & A5 & A6) (B1 & B2 & B3 & B4 & B5 & B6). assert (nl = nl') as <-.
  { destruct (Nat.lt_trichotomy nl nl') as [L|[E|L]]; [specialize (B6 nl q ltac:(lia) A2); congruence|exact E|specialize (A6 nl' q' ltac:(lia) B2); congruence]. }
  split; [reflexivity|]. split; congruence.
Qed.
Lemma adjacent_prev_unique lines pl pl' nl p q p' q' : adjacent_lines lines pl nl p q -> adjacent_lines lines pl' nl p' q' -> pl = pl' /\ p = p' /\ q = q'.
Proof.
  intros (A1 & A2 & A3 & A4 & A5 & A6) (B1 & B2 & B3 & B4 & B5 & B6). assert (pl = pl') as <-.
  { destruct (Nat.lt_trichotomy pl pl') as [L|[E|L]]; [specialize (A6 pl' p' ltac:(lia) B1); congruence|exact E|specialize (B6 pl p ltac:(lia) A1); congruence]. }
  split; [reflexivity|]. split; congruence.
Qed.
Lemma adjacent_new done p pl l ls : last_spined done (Some (pl, p)) -> hasSpines l = true -> adjacent_lines (done ++ l :: ls) pl (length done) p l.
Proof.
  intros (P1 & P2 & P3) HG. pose proof (nth_error_lt _ _ _ P1). repeat split; auto.
  - rewrite nth_error_app_l by assumption. exact P1.
  - rewrite nth_error_app2 by lia. rewrite Nat.sub_diag. reflexivity.
  - intros k z Hk Hz. rewrite nth_error_app_l in Hz by lia. eapply P3; [|exact Hz]. lia.
Qed.

Lemma links_lists ls : forall done prev g g', last_spined done prev -> analyzeLinks_from (length done) prev ls g = Fine g' ->
  forall pl nl p q links, adjacent_lines (done ++ ls) pl nl p q -> length done <= nl -> stitchLinesTogether p q = StitchOk links ->
  (forall a, nextTokens g (pl, a) = []) -> (forall b, previousTokens g (nl, b) = []) ->
  (forall a, nextTokens g' (pl, a) = map (pair nl) (succs links a)) /\ (forall b, previousTokens g' (nl, b) = map (pair pl) (preds links b)).
Proof.
  assert (K : forall ls done prev g g', last_spined done prev -> analyzeLinks_from (length done) prev ls g = Fine g' ->
    (forall x, (forall pl p, prev = Some (pl, p) -> fst x <> pl) -> fst x < length done -> nextTokens g' x = nextTokens g x) /\ (forall x, fst x < length done -> previousTokens g' x = previousTokens g x)).
  { clear ls. induction ls as [|l ls IH]; intros done prev g g' HP H; [injection H as <-; auto|]. cbn [analyzeLinks_from] in H.
    assert (LN : length (done ++ [l]) = S (length done)) by (rewrite app_length; cbn [length]; lia). destruct (isGlobalLine l) eqn:G.
    - assert (HG : hasSpines l = false) by (unfold hasSpines; rewrite G; reflexivity). rewrite <- LN in H. destruct (IH _ _ _ _ (last_spined_global _ _ _ HP HG) H) as (A & B).
      split; [intros x N L; apply A; [exact N|lia]|intros x L; apply B; lia].
    - assert (HG : hasSpines l = true) by (unfold hasSpines; rewrite G; reflexivity). destruct prev as [[pl p]|].
      + destruct (stitchLinesTogether p l) as [links| |]; try discriminate. rewrite <- LN in H. destruct (IH _ _ _ _ (last_spined_new _ _ HG) H) as (A & B). split.
        * intros x N L. rewrite A; [|intros pl' p' E; injection E as <- _; lia|lia]. destruct (add_links_lists pl (length done) links g x) as (X & _). rewrite X.
          specialize (N pl p eq_refl). destruct (Nat.eqb_spec (fst x) pl); [contradiction|]. apply app_nil_r.
        * intros x L. rewrite B by lia. destruct (add_links_lists pl (length done) links g x) as (_ & X). rewrite X. destruct (Nat.eqb_spec (fst x) (length done)); [lia|]. apply app_nil_r.
      + rewrite <- LN in H. destruct (IH _ _ _ _ (last_spined_new _ _ HG) H) as (A & B). split; [intros x _ L; apply A; [intros pl' p' E; injection E as <- _; lia|lia]|intros x L; apply B; lia]. }
  induction ls as [|l ls IH]; intros done prev g g' HP H pl nl p q links AD LE ST EN EP.
  - destruct AD as (_ & N & _). apply nth_error_lt in N. rewrite app_nil_r in N. lia.
  - assert (AS : done ++ l :: ls = (done ++ [l]) ++ ls) by (rewrite <- app_assoc; reflexivity).
    assert (LN : length (done ++ [l]) = S (length done)) by (rewrite app_length; cbn [length]; lia).
    assert (AT : nth_error (done ++ l :: ls) (length done) = Some l) by (rewrite nth_error_app2 by lia; rewrite Nat.sub_diag; reflexivity).
    cbn [analyzeLinks_from] in H. destruct (isGlobalLine l) eqn:G.
    + assert (HG : hasSpines l = false) by (unfold hasSpines; rewrite G; reflexivity). rewrite <- LN in H.
      apply (IH _ _ _ _ (last_spined_global _ _ _ HP HG) H pl nl p q links); auto; [rewrite <- AS; exact AD|].
      destruct (Nat.eq_dec (length done) nl) as [E|]; [|lia]. destruct AD as (_ & N & _ & S1 & _). rewrite <- E, AT in N. injection N as <-. congruence.
    + assert (HG : hasSpines l = true) by (unfold hasSpines; rewrite G; reflexivity). destruct prev as [[pl0 p0]|].
      * destruct (stitchLinesTogether p0 l) as [links0| |] eqn:ST0; try discriminate. rewrite <- LN in H.
        pose proof (adjacent_new done p0 pl0 l ls HP HG) as AD0.
        destruct (Nat.eq_dec (length done) nl) as [E|NE].
        -- subst nl. destruct (adjacent_prev_unique _ _ _ _ _ _ _ _ AD AD0) as (-> & -> & ->). rewrite ST0 in ST. injection ST as ->.
           destruct (K ls _ _ _ _ (last_spined_new _ _ HG) H) as (A & B). pose proof (proj1 HP) as P1. apply nth_error_lt in P1. split.
           ++ intros a. rewrite A; [|intros pl' p' X; injection X as <- _; cbn; lia|cbn; lia]. destruct (add_links_lists pl0 (length done) links g (pl0, a)) as (X & _). rewrite X. cbn [fst snd]. rewrite Nat.eqb_refl, EN. reflexivity.
           ++ intros b. rewrite B by (cbn; lia). destruct (add_links_lists pl0 (length done) links g (length done, b)) as (_ & X). rewrite X. cbn [fst snd]. rewrite Nat.eqb_refl, EP. reflexivity.
        -- apply (IH _ _ _ _ (last_spined_new _ _ HG) H pl nl p q links); [rewrite <- AS; exact AD|lia|exact ST| |].
           ++ intros a. destruct (add_links_lists pl0 (length done) links0 g (pl, a)) as (X & _). rewrite X, EN. cbn [fst]. destruct (Nat.eqb_spec pl pl0) as [->|]; [|reflexivity].
              destruct (adjacent_next_unique _ _ _ _ _ _ _ _ AD AD0) as (E & _). congruence.
           ++ intros b. destruct (add_links_lists pl0 (length done) links0 g (nl, b)) as (_ & X). rewrite X, EP. cbn [fst]. destruct (Nat.eqb_spec nl (length done)) as [->|]; [lia|reflexivity].
      * rewrite <- LN in H. apply (IH _ _ _ _ (last_spined_new _ _ HG) H pl nl p q links); auto; [rewrite <- AS; exact AD|].
        destruct (Nat.eq_dec (length done) nl) as [E|]; [|lia]. destruct AD as (N & _ & S1 & _ & LT & _). rewrite <- E in LT. rewrite nth_error_app_l in N by exact LT. apply nth_error_In in N.
        cbn [last_spined] in HP. rewrite (HP _ N) in S1. discriminate.
Qed.
Theorem analyzeLinks_lists lines g pl nl p q links : analyzeLinks lines = Fine g -> adjacent_lines lines pl nl p q -> stitchLinesTogether p q = StitchOk links ->
  (forall a, nextTokens g (pl, a) = map (pair nl) (succs links a)) /\ (forall b, previousTokens g (nl, b) = map (pair pl) (preds links b)).
Proof.
  intros H AD ST. apply (links_lists lines [] None empty_graph g (fun x (I : In x []) => match I with end) H pl nl p q links AD ltac:(cbn; lia) ST); reflexivity.
Qed.

(** A line whose links are made is followed by a new spine for every [*+]. *)
Lemma stitch_adds next i j ts links adds n : rule i j ts links adds n -> j + n <= length next -> forall lk s,
  stitch_loop next ts i (mkSt j false 0 lk) = Fine s -> forall b, In b adds -> starts_spine next b.
Proof.
  induction 1 as [i j|i j t ts links adds n Ht R IH|i j ts links adds n R IH|i j ts links adds n R IH
    |i j ts links adds n R IH|i j ts links adds n R IH|i j k ts links adds n Hk Hh R IH]; intros HL lk s E b B.
  - contradiction.
  - rewrite stitch_cons in E. unfold stitch_token in E. cbn [st_idx st_links st_merge st_skip] in E.
    replace (match kind t with KSplit => _ | KMerge => _ | KAdd => _ | KExchange => _ | KTerminate => _ | _ => _ end)
      with (Fine (mkSt (S j) false 0 (lk ++ [(i, j)]))) in E.
    2:{ destruct (kind_one t Ht) as [K|K]; rewrite K, has_true by lia; reflexivity. }
    apply (IH ltac:(lia) (lk ++ [(i, j)]) s E b B).
  - rewrite stitch_cons in E. unfold stitch_token in E. cbn [st_idx st_links st_merge st_skip] in E. change (kind (S_ "*^")) with KSplit in E. cbv iota in E. rewrite has_true in E by lia. cbv iota beta in E.
    rewrite has_true in E by lia. cbv iota beta in E. apply (IH ltac:(lia) _ s E b B).
  - rewrite stitch_cons in E. unfold stitch_token in E. cbn [st_idx st_links st_merge st_skip] in E. change (kind (S_ "*+")) with KAdd in E. cbv iota in E.
    destruct (nth_error next (S j)) as [e|] eqn:NE; [|discriminate]. destruct (isExclusiveInterpretation e) eqn:X; [|discriminate]. rewrite has_true in E by lia.
    destruct B as [<-|B]; [exists e; auto|]. apply (IH ltac:(lia) _ s E b B).
  - rewrite stitch_cons in E. unfold stitch_token in E. cbn [st_idx st_links st_merge st_skip] in E. change (kind (S_ "*-")) with KTerminate in E. cbv iota in E. apply (IH ltac:(lia) _ s E b B).
  - rewrite stitch_cons in E. unfold stitch_token in E. cbn [st_idx st_links st_merge st_skip hd_error] in E. change (kind (S_ "*x")) with KExchange in E. change (isExchange (S_ "*x")) with true in E. cbv iota in E.
    cbn [stitch_loop st_skip st_idx st_merge st_links] in E. apply (IH ltac:(lia) _ s E b B).
  - rewrite stitch_merge in E by (try assumption; lia). apply (IH ltac:(lia) _ s E b B).
Qed.

(** ** The starts of the spines *)

Fixpoint exclusives (ln i : nat) (toks : list str) : list tokref :=
  match toks with
  | [] => []
  | t :: ts => (if isExclusiveInterpretation t then [(ln, i)] else []) ++ exclusives ln (S i) ts
  end.
Fixpoint file_exclusives (ln : nat) (lines : list str) : list tokref :=
  match lines with
  | [] => []
  | l :: ls => (if hasSpines l then exclusives ln 0 (tokens l) else []) ++ file_exclusives (S ln) ls
  end.
Fixpoint somes {A} (l : list (option A)) : list A := match l with [] => [] | Some x :: r => x :: somes r | None :: r => somes r end.
Definition nones {A} (l : list (option A)) : nat := length l - length (somes l).
Lemma somes_le {A} (l : list (option A)) : length (somes l) <= length l.
Proof. induction l as [|[x|] l IH]; cbn; lia. Qed.
Lemma somes_app {A} (a b : list (option A)) : somes (a ++ b) = somes a ++ somes b.
Proof. induction a as [|[x|] a IH]; cbn; [reflexivity|f_equal; exact IH|exact IH]. Qed.
Lemma nones_app {A} (a b : list (option A)) : nones (a ++ b) = nones a + nones b.
Proof. unfold nones. rewrite somes_app, !app_length. pose proof (somes_le a). pose proof (somes_le b). lia. Qed.
Lemma nones_zero {A} (l : list (option A)) : nones l = 0 -> l = map Some (somes l).
Proof.
  unfold nones. induction l as [|[x|] l IH]; cbn [length somes map]; intros E; [reflexivity|f_equal; apply IH; lia|]. pose proof (somes_le l). lia.
Qed.

Definition starts_are (tr : tracks) (l : list (option tokref)) : Prop := trackStarts tr = None :: l.
Lemma pending_is tr l : starts_are tr l -> last_start_pending tr = match rev l with None :: _ => true | _ => false end.
Proof.
  intros E. unfold last_start_pending. rewrite E. destruct l as [|x l] using rev_ind; [reflexivity|]. clear IHl. rewrite rev_app_distr. cbn [rev app length].
  rewrite app_length. cbn [length]. replace (1 <? S (length l + 1)) with true by (symmetry; apply Nat.ltb_lt; lia). cbn [andb].
  change (None :: l ++ [x]) with ((None :: l) ++ [x]). rewrite last_last. destruct x; reflexivity.
Qed.
Lemma add_none tr l : starts_are tr l -> starts_are (addToTrackStarts None tr) (l ++ [None]).
Proof. intros E. unfold starts_are, addToTrackStarts. cbn [trackStarts]. rewrite E. reflexivity. Qed.
Lemma add_pending tr l t : starts_are tr l -> last_start_pending tr = true ->
  exists l', l = l' ++ [None] /\ starts_are (addToTrackStarts (Some t) tr) (l' ++ [Some t]).
Proof.
  intros E P. rewrite (pending_is tr l E) in P. destruct l as [|x l] using rev_ind; [discriminate|]. clear IHl. rewrite rev_app_distr in P. cbn in P. destruct x; [discriminate|].
  exists l. split; [reflexivity|]. unfold starts_are, addToTrackStarts. replace (last_start_pending tr) with true; [|symmetry; rewrite (pending_is tr _ E), rev_app_distr; reflexivity].
  cbn [trackStarts]. rewrite E. change (None :: l ++ [None]) with ((None :: l) ++ [@None tokref]). rewrite removelast_last. reflexivity.
Qed.
Lemma add_new tr l t : starts_are tr l -> last_start_pending tr = false -> starts_are (addToTrackStarts (Some t) tr) (l ++ [Some t]).
Proof. intros E P. unfold starts_are, addToTrackStarts. rewrite P. cbn [trackStarts]. rewrite E. reflexivity. Qed.

(** What the tokens of a line do to the starts. *)
Definition starts_change (before after : list (option tokref)) (ex : list tokref) (ads : nat) : Prop :=
  somes after = somes before ++ ex /\ nones after + length ex = nones before + ads.
Lemma change_refl l : starts_change l l [] 0.
Proof. split; [rewrite app_nil_r; reflexivity|cbn; lia]. Qed.
Lemma change_trans a b c x y m n : starts_change a b x m -> starts_change b c y n -> starts_change a c (x ++ y) (m + n).
Proof. intros (A1 & A2) (B1 & B2). split; [rewrite B1, A1, app_assoc; reflexivity|]. rewrite app_length. lia. Qed.
Lemma kind_exclusive t : isExclusiveInterpretation t = match kind t with KExclusive => true | _ => false end.
Proof.
  pose proof (kind_spec t) as K. destruct (kind t) eqn:E; try (subst; reflexivity); [unfold kind in E; repeat match type of E with (if ?b then _ else _) = _ => destruct b eqn:?; try discriminate end; reflexivity|].
  destruct (isExclusiveInterpretation t) eqn:X; [|reflexivity]. exfalso. unfold kind in E. rewrite X in E.
  repeat match type of E with context [if ?b then _ else _] => destruct b; try discriminate end.
Qed.
Lemma kind_add t : is_add t = match kind t with KAdd => true | _ => false end.
Proof.
  unfold is_add. pose proof (kind_spec t) as K. destruct (str_eqb t (S_ "*+")) eqn:E; [apply str_eqb_eq in E; subst; reflexivity|]. apply str_eqb_neq in E. destruct (kind t); auto; contradiction.
Qed.
Definition excl_one (ln i : nat) (t : str) : list tokref := if isExclusiveInterpretation t then [(ln, i)] else [].
Definition add_one (t : str) : nat := if is_add t then 1 else 0.
Lemma adds_in_cons t ts : adds_in (t :: ts) = add_one t + adds_in ts.
Proof. unfold adds_in, add_one. cbn [filter]. destruct (is_add t); reflexivity. Qed.

Lemma adjust_token_starts ln dt si i t rest s s' l : starts_are (a_tracks s) l ->
  adjust_token ln dt si i t (hd_error rest) s = Some s' ->
  (exists l', starts_are (a_tracks s') l' /\ starts_change l l' (excl_one ln i t) (add_one t)) /\ (a_skip s' = true -> hd_error rest = Some (S_ "*x")).
Proof.
  intros E H. unfold adjust_token in H. unfold excl_one, add_one. rewrite kind_exclusive, kind_add. destruct (kind t) eqn:K.
  - injection H as <-. cbn [a_tracks a_skip]. split; [|discriminate]. exists l. split; [exact E|apply change_refl].
  - injection H as <-. cbn [a_tracks a_skip]. split; [|discriminate]. exists l. split; [exact E|apply change_refl].
  - injection H as <-. cbn [a_tracks a_skip]. split; [|discriminate]. exists (l ++ [None]). split; [apply add_none; exact E|]. split; [rewrite somes_app; reflexivity|rewrite nones_app; cbn; lia].
  - destruct rest as [|u rest]; cbn [hd_error] in *; [discriminate|]. destruct (isExchange u) eqn:X; [|discriminate].
    injection H as <-. cbn [a_tracks a_skip]. split; [exists l; split; [exact E|apply change_refl]|]. intros _. apply isExchange_spec in X. congruence.
  - injection H as <-. cbn [a_tracks a_skip]. split; [|discriminate]. exists l. split; [exact E|apply change_refl].
  - destruct (last_start_pending (a_tracks s)) eqn:P; [|discriminate]. injection H as <-. cbn [a_tracks a_skip]. split; [|discriminate].
    destruct (add_pending _ l (ln, i) E P) as (l' & -> & E'). exists (l' ++ [Some (ln, i)]). split; [exact E'|]. split; [rewrite !somes_app; cbn; rewrite app_nil_r; reflexivity|]. rewrite !nones_app. cbn. lia.
  - injection H as <-. cbn [a_tracks a_skip]. split; [|discriminate]. exists l. split; [exact E|apply change_refl].
Qed.

Lemma adjust_loop_starts ln dt si toks : forall i s r l, starts_are (a_tracks s) l -> (a_skip s = true -> hd_error toks = Some (S_ "*x")) ->
  adjust_loop ln dt si toks i s = Some r -> exists l', starts_are (a_tracks r) l' /\ starts_change l l' (exclusives ln i toks) (adds_in toks).
Proof.
  induction toks as [|t rest IH]; intros i s r l E SK H.
  - injection H as <-. exists l. split; [exact E|apply change_refl].
  - cbn [adjust_loop] in H. cbn [exclusives]. rewrite adds_in_cons. fold (excl_one ln i t).
    assert (ME : isMerge t = true -> excl_one ln i t = [] /\ add_one t = 0) by (intros M; apply isMerge_spec in M; subst; split; reflexivity).
    assert (IDLE : forall s0, a_tracks s0 = a_tracks s -> a_skip s0 = false -> excl_one ln i t = [] -> add_one t = 0 -> adjust_loop ln dt si rest (S i) s0 = Some r ->
              exists l', starts_are (a_tracks r) l' /\ starts_change l l' (excl_one ln i t ++ exclusives ln (S i) rest) (add_one t + adds_in rest)).
    { intros s0 E0 S0 X1 X2 R. rewrite X1, X2. apply (IH (S i) s0 r l); [rewrite E0; exact E|congruence|exact R]. }
    assert (TOK : forall s0 s'', a_tracks s0 = a_tracks s -> adjust_token ln dt si i t (hd_error rest) s0 = Some s'' -> adjust_loop ln dt si rest (S i) s'' = Some r ->
              exists l', starts_are (a_tracks r) l' /\ starts_change l l' (excl_one ln i t ++ exclusives ln (S i) rest) (add_one t + adds_in rest)).
    { intros s0 s'' E0 E1 E2. destruct (adjust_token_starts ln dt si i t rest s0 s'' l) as ((l1 & A & B) & C); [rewrite E0; exact E|exact E1|].
      destruct (IH _ _ _ _ A C E2) as (l2 & D & F). exists l2. split; [exact D|]. eapply change_trans; eassumption. }
    destruct (a_skip s) eqn:SS.
    + specialize (SK eq_refl). cbn [hd_error] in SK. injection SK as ->. eapply IDLE; [| | | |exact H]; reflexivity.
    + set (inrun := (0 <? a_merge s) && isMerge t) in *. set (mc := if inrun then _ else _) in *. destruct (inrun && negb _) eqn:R.
      * apply andb_true_iff in R. destruct R as [R _]. unfold inrun in R. apply andb_true_iff in R. destruct R as [_ R]. destruct (ME R) as (M1 & M2). eapply IDLE; [| |exact M1|exact M2|exact H]; reflexivity.
      * destruct ((0 <? mc) && _).
        -- destruct (mc =? 1); [discriminate|]. destruct (getMergedSpineInfo _ _ _) as [lab|]; [|discriminate]. destruct (isMerge t) eqn:M.
           ++ destruct (ME eq_refl) as (M1 & M2). eapply IDLE; [| |exact M1|exact M2|exact H]; reflexivity.
           ++ destruct (adjust_token _ _ _ _ _ _ _) as [s''|] eqn:X; [|discriminate]. eapply TOK; [|exact X|exact H]. reflexivity.
        -- destruct (adjust_token _ _ _ _ _ _ _) as [s''|] eqn:X; [|discriminate]. eapply TOK; [|exact X|exact H]. reflexivity.
Qed.
Lemma no_manip_starts ln toks : existsb isManipulatorToken toks = false -> forall i, exclusives ln i toks = [] /\ adds_in toks = 0.
Proof.
  induction toks as [|t ts IH]; intros H i; [auto|]. cbn [existsb] in H. apply orb_false_iff in H. destruct H as [H1 H2]. cbn [exclusives]. rewrite adds_in_cons.
  destruct (IH H2 (S i)) as (A & B). rewrite A, B. unfold add_one. rewrite kind_exclusive, kind_add. unfold isManipulatorToken in H1. destruct (kind t); try discriminate. split; reflexivity.
Qed.
Definition adds_of (lines : list str) : nat := list_sum (map (fun l => adds_in (tokens l)) (spined lines)).
Lemma adds_of_cons l ls : isGlobalLine l = false -> adds_of (l :: ls) = adds_in (tokens l) + adds_of ls.
Proof. intros G. unfold adds_of. rewrite spined_cons by exact G. reflexivity. Qed.
Lemma spine_lines_starts ls : forall ln st infos fin l, starts_are (s_tracks st) l -> spine_lines ln ls st = Some (infos, fin) ->
  exists l', starts_are (s_tracks fin) l' /\ starts_change l l' (file_exclusives ln ls) (adds_of ls).
Proof.
  induction ls as [|x ls IH]; intros ln st infos fin l E H; cbn [spine_lines file_exclusives] in *.
  - injection H as <- <-. exists l. split; [exact E|apply change_refl].
  - destruct (isGlobalLine x) eqn:G.
    + unfold hasSpines. rewrite G. cbn [negb app]. unfold adds_of. rewrite spined_cons_global by exact G. eapply IH; eassumption.
    + unfold hasSpines. rewrite G. cbn [negb]. rewrite adds_of_cons by exact G. destruct (spine_line ln (tokens x) st) as [st'|] eqn:SL; [|discriminate].
      destruct (spine_lines (S ln) ls st') as [[i1 f1]|] eqn:R; [|discriminate]. injection H as <- <-.
      unfold spine_line in SL. destruct (negb _); [discriminate|]. destruct (existsb isManipulatorToken (tokens x)) eqn:M.
      * unfold adjustSpines in SL. destruct (adjust_loop _ _ _ _ _ _) as [r|] eqn:A; [|discriminate]. injection SL as <-.
        destruct (adjust_loop_starts _ _ _ _ 0 (mkAdj false 0 [] [] (s_tracks st)) _ l E ltac:(discriminate) A) as (l1 & B & C).
        destruct (IH _ (mkS (a_type r) (a_info r) (a_tracks r)) _ _ l1 B R) as (l2 & D & F). exists l2. split; [exact D|]. eapply change_trans; eassumption.
      * injection SL as <-. destruct (no_manip_starts ln _ M 0) as (A & B). rewrite A, B. cbn [app]. eapply IH; eassumption.
Qed.
Lemma init_tracks_starts ln toks : forall j tr l, (forall t, In t toks -> isExclusiveInterpretation t = true) -> starts_are tr l -> nones l = 0 ->
  exists l', starts_are (init_tracks ln j toks tr) l' /\ somes l' = somes l ++ exclusives ln j toks /\ nones l' = 0.
Proof.
  induction toks as [|t ts IH]; intros j tr l EX E Z; cbn [init_tracks exclusives]; [exists l; rewrite app_nil_r; auto|].
  assert (P : last_start_pending tr = false).
  { rewrite (pending_is tr l E). rewrite (nones_zero l Z), <- map_rev. destruct (rev (somes l)); reflexivity. }
  destruct (IH (S j) _ (l ++ [Some (ln, j)]) (fun u U => EX u (or_intror U)) (add_new tr l (ln, j) E P)) as (l' & A & B & C); [rewrite nones_app, Z; reflexivity|].
  exists l'. split; [exact A|]. split; [|exact C]. rewrite B, somes_app. cbn [somes]. rewrite <- app_assoc. rewrite EX by (left; reflexivity). reflexivity.
Qed.

(** Sums along neighbouring lines. *)
Lemma sums_meet {X} (f e : X -> nat) rest : forall x, f (last rest x) = 0 -> (forall p q, consecutive p q (x :: rest) -> f p <= e q) ->
  list_sum (map f (x :: rest)) <= list_sum (map e rest) /\
  (list_sum (map e rest) <= list_sum (map f (x :: rest)) -> forall p q, consecutive p q (x :: rest) -> f p = e q).
Proof.
  induction rest as [|y rest IH]; intros x L C.
  - cbn in *. split; [lia|]. intros _ p q (pre & post & E). destruct pre as [|? [|]]; discriminate.
  - assert (C0 : f x <= e y) by (apply C; exists [], rest; reflexivity).
    destruct (IH y) as (A & B).
    + rewrite <- L. destruct rest as [|z rest]; [reflexivity|]. f_equal. cbn [last]. clear. revert z. induction rest as [|w rest IH]; intros z; [reflexivity|]. apply (IH w).
    + intros p q (pre & post & E). apply C. exists (x :: pre), post. rewrite E. reflexivity.
    + change (list_sum (map f (x :: y :: rest))) with (f x + list_sum (map f (y :: rest))). change (list_sum (map e (y :: rest))) with (e y + list_sum (map e rest)).
      split; [lia|]. intros T0 p q CQ. apply consecutive_cons in CQ. destruct CQ as [(-> & E)|CQ]; [cbn in E; injection E as <-; lia|]. apply B; [lia|exact CQ].
Qed.

Lemma exclusives_in ln toks : forall i x, In x (exclusives ln i toks) <-> fst x = ln /\ i <= snd x /\ starts_spine toks (snd x - i).
Proof.
  induction toks as [|t ts IH]; intros i [a b]; cbn [exclusives fst snd].
  - split; [intros []|]. intros (_ & _ & e & E & _). destruct (b - i); discriminate.
  - rewrite in_app_iff, IH. cbn [fst snd]. unfold starts_spine. split.
    + intros [I|(-> & L & e & E & X)].
      * destruct (isExclusiveInterpretation t) eqn:X; [|contradiction]. destruct I as [I|[]]. injection I as <- <-. split; [reflexivity|]. split; [lia|]. exists t. rewrite Nat.sub_diag. auto.
      * split; [reflexivity|]. split; [lia|]. exists e. replace (b - i) with (S (b - S i)) by lia. auto.
    + intros (-> & L & e & E & X). destruct (b - i) as [|k] eqn:K.
      * left. cbn in E. injection E as <-. rewrite X. left. f_equal. lia.
      * right. split; [reflexivity|]. split; [lia|]. exists e. replace (b - S i) with k by lia. auto.
Qed.
Lemma exclusives_nodup ln toks : forall i, NoDup (exclusives ln i toks).
Proof.
  induction toks as [|t ts IH]; intros i; cbn [exclusives]; [constructor|]. destruct (isExclusiveInterpretation t); [|apply IH]. cbn [app]. constructor; [|apply IH].
  intros I. apply exclusives_in in I. cbn in I. lia.
Qed.
Lemma file_exclusives_in lines : forall ln x, In x (file_exclusives ln lines) <-> exists l, ln <= fst x /\ nth_error lines (fst x - ln) = Some l /\ hasSpines l = true /\ starts_spine (tokens l) (snd x).
Proof.
  induction lines as [|l ls IH]; intros ln x; cbn [file_exclusives].
  - split; [intros []|]. intros (l & _ & E & _). destruct (fst x - ln); discriminate.
  - rewrite in_app_iff, IH. split.
    + intros [I|(y & L & E & X)].
      * destruct (hasSpines l) eqn:HS; [|contradiction]. apply exclusives_in in I. destruct I as (E & _ & X). rewrite Nat.sub_0_r in X. exists l. rewrite E, Nat.sub_diag. auto.
      * exists y. replace (fst x - ln) with (S (fst x - S ln)) by lia. split; [lia|auto].
    + intros (y & L & E & HS & X). destruct (fst x - ln) as [|k] eqn:K.
      * left. cbn in E. injection E as ->. rewrite HS. apply exclusives_in. rewrite Nat.sub_0_r. split; [lia|]. split; [lia|exact X].
      * right. exists y. replace (fst x - S ln) with k by lia. split; [lia|auto].
Qed.
Lemma file_exclusives_nodup lines : forall ln, NoDup (file_exclusives ln lines).
Proof.
  induction lines as [|l ls IH]; intros ln; cbn [file_exclusives]; [constructor|]. apply NoDup_app_intro; [destruct (hasSpines l); [apply exclusives_nodup|constructor]|apply IH|].
  intros x A B. apply file_exclusives_in in B. destruct B as (_ & B & _). destruct (hasSpines l); [|contradiction]. apply exclusives_in in A. destruct A as (A & _). lia.
Qed.
Lemma file_exclusives_length lines : forall ln, length (file_exclusives ln lines) = list_sum (map (fun l => length (exclusives 0 0 (tokens l))) (spined lines)).
Proof.
  assert (K : forall ln ln' toks i, length (exclusives ln i toks) = length (exclusives ln' i toks)).
  { intros ln ln' toks. induction toks as [|t ts IH]; intros i; [reflexivity|]. cbn [exclusives]. rewrite !app_length, IH. destruct (isExclusiveInterpretation t); reflexivity. }
  induction lines as [|l ls IH]; intros ln; [reflexivity|]. cbn [file_exclusives]. unfold hasSpines. destruct (isGlobalLine l) eqn:G.
  - rewrite spined_cons_global by exact G. apply IH.
  - rewrite spined_cons by exact G. cbn [negb]. rewrite app_length, (IH (S ln)), (K ln 0). reflexivity.
Qed.

(** ** Labels *)

Lemma spine_lines_labels ls : forall ln st infos fin, length (s_type st) = length (s_info st) -> spine_lines ln ls st = Some (infos, fin) ->
  forall k p, nth_error ls k = Some p -> hasSpines p = true -> length (labels_at ls infos k) = length (tokens p) /\ In (labels_at ls infos k) infos.
Proof.
  induction ls as [|l ls IH]; intros ln st infos fin LE H k p N HS; [destruct k; discriminate|]. cbn [spine_lines labels_at] in *. destruct (isGlobalLine l) eqn:G.
  - destruct k as [|k]; [cbn in N; injection N as ->; unfold hasSpines in HS; rewrite G in HS; discriminate|]. eapply IH; eassumption.
  - destruct (spine_line ln (tokens l) st) as [st'|] eqn:SL; [|discriminate]. destruct (spine_lines (S ln) ls st') as [[i1 f1]|] eqn:R; [|discriminate]. injection H as <- <-.
    unfold spine_line in SL. destruct (length (s_type st) =? length (tokens l)) eqn:E; [|discriminate]. cbn [negb] in SL. apply Nat.eqb_eq in E. destruct k as [|k].
    + cbn in N. injection N as ->. split; [lia|left; reflexivity].
    + assert (LE' : length (s_type st') = length (s_info st')).
      { destruct (existsb isManipulatorToken (tokens l)); [|injection SL as <-; exact LE]. apply adjust_count in SL. apply SL. }
      destruct (IH _ _ _ _ LE' R k p N HS) as (A & B). split; [exact A|right; exact B].
Qed.
Lemma analyzeSpines_labels ls : forall ln infos fin, analyzeSpines_from ln ls = Some (infos, fin) ->
  forall k p, nth_error ls k = Some p -> hasSpines p = true -> length (labels_at ls infos k) = length (tokens p) /\ In (labels_at ls infos k) infos.
Proof.
  induction ls as [|l ls IH]; intros ln infos fin H k p N HS; [destruct k; discriminate|]. cbn [analyzeSpines_from labels_at] in *. destruct (isGlobalLine l) eqn:G.
  - destruct k as [|k]; [cbn in N; injection N as ->; unfold hasSpines in HS; rewrite G in HS; discriminate|]. eapply IH; eassumption.
  - destruct (isExclusiveLine l); [|discriminate]. destruct (spine_lines _ _ _) as [[i1 f1]|] eqn:R; [|discriminate]. injection H as <- <-.
    assert (LI : length (init_info (tokens l)) = length (tokens l)) by (unfold init_info; rewrite map_length, seq_length; reflexivity). destruct k as [|k].
    + cbn in N. injection N as ->. split; [exact LI|left; reflexivity].
    + destruct (spine_lines_labels ls _ (init_state ln (tokens l)) _ _ ltac:(cbn [init_state s_type s_info]; lia) R k p N HS) as (A & B). split; [exact A|right; exact B].
Qed.
(** A column with a column of the same track on its left has sub-track two or more. *)
Lemma sub_of_second labels i : analyzeTracks labels <> None -> S i < length labels -> label_track (nth i labels []) = label_track (nth (S i) labels []) -> (1 < sub_of labels (S i))%Z.
Proof.
  intros NN L E. unfold sub_of. destruct (analyzeTracks labels) as [addrs|] eqn:A; [|congruence]. destruct (analyzeTracks_spec labels addrs A) as (M & SP).
  assert (LA : length addrs = length labels) by (rewrite <- (map_length trackNum addrs), M, map_length; reflexivity).
  destruct (nth_error addrs (S i)) as [a|] eqn:NA; [|apply nth_error_None in NA; lia].
  rewrite (SP (S i) (nth (S i) labels []) a); [|apply nth_error_nth'; exact L|exact NA]. set (t := label_track (nth (S i) labels [])) in *.
  assert (F1 : In t (firstn (S i) (map label_track labels))).
  { rewrite firstn_map. apply in_map_iff. exists (nth i labels []). split; [exact E|]. rewrite <- (firstn_skipn (S i) labels) at 1. rewrite app_nth1 by (rewrite firstn_length; lia). apply nth_In. rewrite firstn_length. lia. }
  assert (SPL : map label_track labels = firstn (S i) (map label_track labels) ++ skipn (S i) (map label_track labels)) by (rewrite firstn_skipn; reflexivity).
  assert (F2 : In t (skipn (S i) (map label_track labels))).
  { rewrite skipn_map. apply in_map_iff. exists (nth (S i) labels []). split; [reflexivity|].
    rewrite <- (firstn_skipn (S i) labels) at 1. rewrite app_nth2 by (rewrite firstn_length; lia). apply nth_In. rewrite firstn_length, skipn_length. lia. }
  unfold expected_subtrack. assert (O1 : 1 <= occ t (firstn (S i) (map label_track labels))) by (apply count_occ_In; exact F1).
  assert (O2 : 1 < occ t (map label_track labels)).
  { rewrite SPL. unfold occ in *. rewrite count_occ_app. apply (count_occ_In N.eq_dec) in F2. lia. }
  apply Nat.ltb_lt in O2. rewrite O2. lia.
Qed.

(** ** Files *)

(** Only columns of one track are merged. *)
Definition merges_within_tracks (lines : list str) (infos : list (list str)) : Prop :=
  forall ln p i, nth_error lines ln = Some p -> nth_error (tokens p) i = V -> nth_error (tokens p) (S i) = V ->
    label_track (nth i (labels_at lines infos ln) []) = label_track (nth (S i) (labels_at lines infos ln) []).
(** The last line of spines opens no new ones. *)
Definition no_open_spine (lines : list str) : Prop := forall l, last (map Some (spined lines)) None = Some l -> ~ In (S_ "*+") (tokens l).
(** A token of the file. *)
Definition in_file (lines : list str) (t : tokref) : Prop := exists l, nth_error lines (fst t) = Some l /\ hasSpines l = true /\ snd t < length (tokens l).

Lemma first_spined_from fin ls : forall ln infos, analyzeSpines_from ln ls = Some (infos, fin) -> opens_cleanly ls -> exists k l0 rest, spined ls = l0 :: rest /\ nth_error ls k = Some l0 /\ hasSpines l0 = true /\ (forall j x, j < k -> nth_error ls j = Some x -> hasSpines x = false) /\
  (exists l, starts_are (s_tracks fin) l /\ somes l = file_exclusives ln ls /\
    nones l + list_sum (map (fun x => length (exclusives 0 0 (tokens x))) rest) = list_sum (map (fun x => adds_in (tokens x)) rest)).
Proof.
  induction ls as [|l ls IH]; intros ln infos H O; [discriminate|]. cbn [analyzeSpines_from] in H. destruct (isGlobalLine l) eqn:G.
  - destruct (IH (S ln) infos H ltac:(unfold opens_cleanly in *; rewrite spined_cons_global in O by exact G; exact O)) as (k & l0 & rest & A & B & C & D & E). exists (S k), l0, rest. rewrite spined_cons_global by exact G.
    split; [exact A|]. split; [exact B|]. split; [exact C|]. split.
    + intros [|j] x L N; [cbn in N; injection N as <-; unfold hasSpines; rewrite G; reflexivity|]. apply (D j x); [lia|exact N].
    + destruct E as (s & S1 & S2 & S3). exists s. split; [exact S1|]. split; [|exact S3]. rewrite S2. cbn [file_exclusives]. unfold hasSpines. rewrite G. reflexivity.
  - destruct (isExclusiveLine l); [|discriminate]. destruct (spine_lines _ _ _) as [[i1 f1]|] eqn:R; [|discriminate]. injection H as <- <-.
    exists 0, l, (spined ls). rewrite spined_cons by exact G. assert (HG : hasSpines l = true) by (unfold hasSpines; rewrite G; reflexivity).
    split; [reflexivity|]. split; [reflexivity|]. split; [exact HG|]. split; [intros j x L; lia|].
    destruct (init_tracks_starts ln (tokens l) 0 (mkTracks [None] [[]]) []) as (s0 & A & B & C); [intros t I; apply (O l t); [rewrite spined_cons by exact G; reflexivity|exact I]|reflexivity|reflexivity|].
    destruct (spine_lines_starts ls (S ln) (init_state ln (tokens l)) _ _ s0 A R) as (s & S1 & S2 & S3). exists s. split; [exact S1|]. cbn [file_exclusives]. rewrite HG. split; [rewrite S2, B; reflexivity|].
    rewrite (file_exclusives_length ls (S ln)), C in S3. unfold adds_of in S3. exact S3.
Qed.

Lemma last_default {X} (r : list X) : forall x a b, last (x :: r) a = last (x :: r) b.
Proof. induction r as [|y r IH]; intros x a b; [reflexivity|]. apply (IH y). Qed.
Lemma last_some {X} (r : list X) : forall x, last (map Some (x :: r)) None = Some (last r x).
Proof.
  induction r as [|y r IH]; intros x; [reflexivity|]. change (last (map Some (x :: y :: r)) None) with (last (map Some (y :: r)) None). rewrite IH. f_equal.
  destruct r as [|z r]; [reflexivity|]. change (last (y :: z :: r) x) with (last (z :: r) x). apply last_default.
Qed.
Section File.
Variables (lines : list str) (infos : list (list str)) (fin : sstate) (g : graph).
Hypothesis HS : analyzeSpines lines = Some (infos, fin).
Hypothesis HL : analyzeLinks lines = Fine g.
Hypothesis HT : Forall (fun labels => analyzeTracks labels <> None) infos.
Hypothesis HO : opens_cleanly lines.
Hypothesis HM : manipulators_on_interpretation_lines lines.
Hypothesis HV : merges_within_tracks lines infos.
Hypothesis HE : no_open_spine lines.
Local Notation F := (file_of lines infos g).
Definition spine_starts : list tokref := file_exclusives 0 lines.

Lemma file_accepted : accepted lines.
Proof. exists infos, fin, g. auto. Qed.
Lemma line_rule pl nl p q : adjacent_lines lines pl nl p q -> exists links adds, rule 0 0 (tokens p) links adds (length (tokens q)) /\ stitchLinesTogether p q = StitchOk links /\
  (forall a, nextTokens g (pl, a) = map (pair nl) (succs links a)) /\ (forall b, previousTokens g (nl, b) = map (pair pl) (preds links b)).
Proof.
  intros AD. destruct (accepted_links lines p q file_accepted HO HM (adjacent_consecutive _ _ _ _ _ AD)) as (links & adds & R & ST).
  exists links, adds. split; [exact R|]. split; [exact ST|]. eapply analyzeLinks_lists; eassumption.
Qed.
Lemma next_line t u : In u (nextTokens g t) -> exists p q links adds, adjacent_lines lines (fst t) (fst u) p q /\ rule 0 0 (tokens p) links adds (length (tokens q)) /\
  stitchLinesTogether p q = StitchOk links /\ In (snd t, snd u) links /\ nextTokens g t = map (pair (fst u)) (succs links (snd t)) /\ previousTokens g u = map (pair (fst t)) (preds links (snd u)).
Proof.
  intros I. apply (analyzeLinks_exact lines g HL) in I. destruct I as (p & q & links & AD & ST & I). destruct (line_rule _ _ _ _ AD) as (links' & adds & R & ST' & NX & PV).
  rewrite ST in ST'. injection ST' as <-. exists p, q, links, adds. split; [exact AD|]. split; [exact R|]. split; [exact ST|]. split; [exact I|]. destruct t, u. split; [apply NX|apply PV].
Qed.
Lemma reads_line p : reads_at (nth_error (tokens p)) 0 (tokens p).
Proof. intros d D. rewrite Nat.add_0_r. reflexivity. Qed.
Lemma text_of ln p a : nth_error lines ln = Some p -> sf_text F (ln, a) = nth a (tokens p) [].
Proof. intros N. cbn [file_of sf_text]. unfold text_at. cbn [fst snd]. rewrite (nth_error_nth lines ln [] N). reflexivity. Qed.
Lemma is_v_of ln p a : nth_error lines ln = Some p -> is_v F (ln, a) = true <-> nth_error (tokens p) a = V.
Proof.
  intros N. unfold is_v. rewrite (text_of ln p a N), str_eqb_eq. unfold V. split.
  - intros E. destruct (nth_error (tokens p) a) as [x|] eqn:X; [rewrite (nth_error_nth _ _ _ X) in E; congruence|]. rewrite nth_overflow in E by (apply nth_error_None; exact X). discriminate.
  - intros E. apply nth_error_nth. exact E.
Qed.
Lemma is_end_of ln p a : nth_error lines ln = Some p -> is_end F (ln, a) = true <-> nth_error (tokens p) a = T.
Proof.
  intros N. unfold is_end. rewrite (text_of ln p a N), str_eqb_eq. unfold T. split.
  - intros E. destruct (nth_error (tokens p) a) as [x|] eqn:X; [rewrite (nth_error_nth _ _ _ X) in E; congruence|]. rewrite nth_overflow in E by (apply nth_error_None; exact X). discriminate.
  - intros E. apply nth_error_nth. exact E.
Qed.
(** The second and later tokens of a merge end their strands; the first does not. *)
Lemma later_merge_ends ln p a : nth_error lines ln = Some p -> hasSpines p = true -> nth_error (tokens p) (S a) = V -> nth_error (tokens p) a = V -> ends F (ln, S a) = true.
Proof.
  intros N SP V1 V0. unfold ends. assert (IV : is_v F (ln, S a) = true) by (apply (is_v_of ln p); assumption). rewrite IV.
  assert (LV : left_is_v F (ln, S a) = true) by (unfold left_is_v; cbn [fst snd]; apply (is_v_of ln p); assumption).
  unfold analyzeSpines in HS. destruct (analyzeSpines_labels lines 0 infos fin HS ln p N SP) as (LL & LI).
  assert (SU : (1 < sf_sub F (ln, S a))%Z).
  { cbn [file_of sf_sub fst snd]. apply sub_of_second.
    - rewrite Forall_forall in HT. apply HT. exact LI.
    - rewrite LL. apply nth_error_Some. rewrite V1. discriminate.
    - apply (HV ln p a); assumption. }
  apply Z.ltb_lt in SU. rewrite SU. exact LV.
Qed.
Lemma continues ln p a : nth_error lines ln = Some p -> nth_error (tokens p) a <> T -> (nth_error (tokens p) a = V -> a = 0 \/ nth_error (tokens p) (a - 1) <> V) -> ends F (ln, a) = false.
Proof.
  intros N NT NV. unfold ends. destruct (is_v F (ln, a) && (1 <? sf_sub F (ln, a))%Z) eqn:E.
  - apply andb_prop in E. destruct E as (E & _). apply (is_v_of ln p a N) in E. unfold left_is_v. cbn [fst snd]. destruct a as [|a]; [reflexivity|]. destruct (NV E) as [Z|Z]; [discriminate|].
    replace (S a - 1) with a in Z by lia. destruct (is_v F (ln, a)) eqn:X; [|reflexivity]. apply (is_v_of ln p a N) in X. contradiction.
  - destruct (is_end F (ln, a)) eqn:X; [|reflexivity]. apply (is_end_of ln p a N) in X. contradiction.
Qed.
(** Of two tokens that lead to one, the right one ends its strand. *)
Lemma right_source_ends pl p nl q links adds a a' b : adjacent_lines lines pl nl p q -> rule 0 0 (tokens p) links adds (length (tokens q)) ->
  In (a, b) links -> In (a', b) links -> a < a' -> ends F (pl, a') = true.
Proof.
  intros AD R A A' LT. destruct (rule_sources _ _ _ _ _ _ R _ (reads_line p) a a' b A A' LT) as (V1 & V0). destruct a' as [|a']; [lia|]. replace (S a' - 1) with a' in V0 by lia.
  apply (later_merge_ends pl p a'); try assumption; apply AD.
Qed.
Lemma succs_nodup links a : NoDup links -> NoDup (succs links a).
Proof.
  intros ND. unfold succs. induction ND as [|[x y] l NI ND IH]; [constructor|]. cbn [filter fst]. destruct (Nat.eqb_spec x a) as [->|]; [|exact IH]. cbn [map snd]. constructor; [|exact IH].
  intros I. apply NI. apply (succs_in l a y). exact I.
Qed.

(** *** Starts *)

Lemma first_spined : exists k l0 rest, spined lines = l0 :: rest /\ nth_error lines k = Some l0 /\ hasSpines l0 = true /\ (forall j x, j < k -> nth_error lines j = Some x -> hasSpines x = false) /\
  (exists l, starts_are (s_tracks fin) l /\ somes l = file_exclusives 0 lines /\
    nones l + list_sum (map (fun x => length (exclusives 0 0 (tokens x))) rest) = list_sum (map (fun x => adds_in (tokens x)) rest)).
Proof. exact (first_spined_from fin lines 0 infos HS HO). Qed.
Lemma added_start pl nl p q links adds b : adjacent_lines lines pl nl p q -> rule 0 0 (tokens p) links adds (length (tokens q)) -> In b adds -> starts_spine (tokens q) b.
Proof.
  intros AD R I. destruct (line_rule pl nl p q AD) as (links' & adds' & R' & ST & _). unfold stitchLinesTogether in ST.
  destruct (negb (isInterpretationLine p) && negb (isInterpretationLine q)) eqn:NI.
  - exfalso. apply andb_prop in NI. destruct NI as (NI & _). assert (L := rule_adds _ _ _ _ _ _ R). unfold adds_in in L.
    destruct (filter is_add (tokens p)) as [|x r] eqn:FE; [destruct adds; [contradiction|discriminate]|].
    assert (X : In x (filter is_add (tokens p))) by (rewrite FE; left; reflexivity). apply filter_In in X. destruct X as (X & A). unfold is_add in A. apply str_eqb_eq in A. subst x.
    assert (II : isInterpretationLine p = true); [|rewrite II in NI; discriminate]. apply (HM p (S_ "*+")); [|exact X|unfold manipulators; cbn [In]; tauto].
    eapply consecutive_in. eapply adjacent_consecutive. exact AD.
  - destruct (stitch_loop (tokens q) (tokens p) 0 (mkSt 0 false 0 [])) as [s| |] eqn:E; try discriminate. eapply stitch_adds; [exact R|lia|exact E|exact I].
Qed.
(** Behind the opening line, the spine starts are the new spines of the line before. *)
Lemma starts_exact : tl (trackStarts (s_tracks fin)) = map Some spine_starts /\
  forall pl nl p q links adds b, adjacent_lines lines pl nl p q -> rule 0 0 (tokens p) links adds (length (tokens q)) -> (starts_spine (tokens q) b <-> In b adds).
Proof.
  destruct first_spined as (k & l0 & rest & SP & NK & SK & BK & l & S1 & S2 & S3).
  set (ex := fun x => length (exclusives 0 0 (tokens x))) in *. set (ad := fun x => adds_in (tokens x)) in *.
  assert (C : forall p q, consecutive p q (l0 :: rest) -> exists pl nl, adjacent_lines lines pl nl p q).
  { intros p q CQ. rewrite <- SP in CQ. clear -CQ. unfold spined in CQ. destruct CQ as (pre & post & E).
    revert pre E. induction lines as [|x ls IH]; intros pre E; [destruct pre; discriminate|]. cbn [filter] in E. destruct (hasSpines x) eqn:HX.
    - destruct pre as [|y pre]; injection E as <- E.
      + assert (G : exists nl, nth_error ls nl = Some q /\ hasSpines q = true /\ forall j z, j < nl -> nth_error ls j = Some z -> hasSpines z = false).
        { clear IH. revert E. induction ls as [|y ls IH]; intros E; [discriminate|]. cbn [filter] in E. destruct (hasSpines y) eqn:HY.
          - injection E as -> E. exists 0. split; [reflexivity|]. split; [exact HY|]. intros j z L. lia.
          - destruct (IH E) as (nl & A & B & D). exists (S nl). split; [exact A|]. split; [exact B|]. intros [|j] z L N; [cbn in N; injection N as <-; exact HY|]. apply (D j z); [lia|exact N]. }
        destruct G as (nl & A & B & D). exists 0, (S nl). split; [reflexivity|]. split; [exact A|]. split; [exact HX|]. split; [exact B|]. split; [lia|].
        intros [|j] z L N; [lia|]. apply (D j z); [lia|exact N].
      + destruct (IH pre E) as (pl & nl & A1 & A2 & A3 & A4 & A5 & A6). exists (S pl), (S nl). repeat split; auto; [lia|]. intros [|j] z L N; [lia|]. apply (A6 j z); [lia|exact N].
    - destruct (IH pre E) as (pl & nl & A1 & A2 & A3 & A4 & A5 & A6). exists (S pl), (S nl). repeat split; auto; [lia|]. intros [|j] z L N; [lia|]. apply (A6 j z); [lia|exact N]. }
  assert (SUB : forall pl nl p q links adds, adjacent_lines lines pl nl p q -> rule 0 0 (tokens p) links adds (length (tokens q)) -> NoDup adds /\ incl adds (map snd (exclusives 0 0 (tokens q))) /\ length adds = ad p).
  { intros pl nl p q links adds AD R. split; [apply (rule_nodup _ _ _ _ _ _ R)|]. split; [|apply (rule_adds _ _ _ _ _ _ R)]. intros b B. apply in_map_iff. exists (0, b). split; [reflexivity|].
    apply exclusives_in. cbn [fst snd]. split; [reflexivity|]. split; [lia|]. rewrite Nat.sub_0_r. eapply added_start; eassumption. }
  assert (LE : forall p q, consecutive p q (l0 :: rest) -> ad p <= ex q).
  { intros p q CQ. destruct (C p q CQ) as (pl & nl & AD). destruct (line_rule pl nl p q AD) as (links & adds & R & _). destruct (SUB _ _ _ _ _ _ AD R) as (A1 & A2 & A3).
    rewrite <- A3. unfold ex. etransitivity; [apply NoDup_incl_length; [exact A1|exact A2]|]. rewrite map_length. reflexivity. }
  assert (LA : ad (last rest l0) = 0).
  { unfold ad, adds_in. assert (NA : ~ In (S_ "*+") (tokens (last rest l0))).
    { apply HE. rewrite SP. apply last_some. }
    destruct (filter is_add (tokens (last rest l0))) as [|x r] eqn:FE; [reflexivity|]. exfalso. apply NA.
    assert (X : In x (filter is_add (tokens (last rest l0)))) by (rewrite FE; left; reflexivity). apply filter_In in X. destruct X as (X & A). unfold is_add in A. apply str_eqb_eq in A. subst x. exact X. }
  destruct (sums_meet ad ex rest l0 LA LE) as (A & B).
  assert (A0 : ad l0 = 0).
  { unfold ad, adds_in. destruct (filter is_add (tokens l0)) as [|x r] eqn:FE; [reflexivity|]. exfalso.
    assert (X : In x (filter is_add (tokens l0))) by (rewrite FE; left; reflexivity). apply filter_In in X. destruct X as (X & Y). unfold is_add in Y. apply str_eqb_eq in Y. subst x.
    assert (Z : isExclusiveInterpretation (S_ "*+") = true) by (apply (HO l0); [rewrite SP; reflexivity|exact X]). discriminate. }
  change (list_sum (map ad (l0 :: rest))) with (ad l0 + list_sum (map ad rest)) in *. split.
  - unfold starts_are in S1. rewrite S1. cbn [tl]. unfold spine_starts. rewrite <- S2. apply nones_zero. lia.
  - intros pl nl p q links adds b AD R. split; [|intros I; eapply added_start; eassumption]. intros SB.
    destruct (SUB _ _ _ _ _ _ AD R) as (A1 & A2 & A3).
    assert (EQ : ad p = ex q) by (apply B; [lia|]; rewrite <- SP; eapply adjacent_consecutive; exact AD).
    assert (I : incl (map snd (exclusives 0 0 (tokens q))) adds).
    { apply NoDup_length_incl; [exact A1| |exact A2]. rewrite map_length, A3, EQ. apply le_n. }
    apply I. apply in_map_iff. exists (0, b). split; [reflexivity|]. apply exclusives_in. cbn [fst snd]. split; [reflexivity|]. split; [lia|]. rewrite Nat.sub_0_r. exact SB.
Qed.
Lemma no_line_above k l0 : nth_error lines k = Some l0 -> (forall j x, j < k -> nth_error lines j = Some x -> hasSpines x = false) -> forall pl p q, ~ adjacent_lines lines pl k p q.
Proof. intros N B pl p q (A1 & A2 & A3 & A4 & A5 & A6). specialize (B pl p A5 A1). congruence. Qed.
(** A spined line is the first one or follows another. *)
Lemma line_above n q : nth_error lines n = Some q -> hasSpines q = true -> (forall j x, j < n -> nth_error lines j = Some x -> hasSpines x = false) \/ exists pl p, adjacent_lines lines pl n p q.
Proof.
  intros N S1. assert (G : forall m, m <= n -> (forall j x, j < m -> nth_error lines j = Some x -> hasSpines x = false) \/
    exists pl p, nth_error lines pl = Some p /\ hasSpines p = true /\ pl < m /\ forall k x, pl < k < m -> nth_error lines k = Some x -> hasSpines x = false).
  { induction m as [|m IH]; intros L; [left; intros j x Z; lia|]. assert (LN := nth_error_lt _ _ _ N). destruct (nth_error lines m) as [y|] eqn:NY; [|apply nth_error_None in NY; lia].
    destruct (hasSpines y) eqn:HY.
    - right. exists m, y. split; [exact NY|]. split; [exact HY|]. split; [lia|]. intros k x Z. lia.
    - destruct (IH ltac:(lia)) as [A|(pl & p & A1 & A2 & A3 & A4)].
      + left. intros j x L1 NX. destruct (Nat.eq_dec j m) as [->|]; [congruence|]. apply (A j x); [lia|exact NX].
      + right. exists pl, p. split; [exact A1|]. split; [exact A2|]. split; [lia|]. intros k x Z NX. destruct (Nat.eq_dec k m) as [->|]; [congruence|]. apply (A4 k x); [lia|exact NX]. }
  destruct (G n (le_n n)) as [A|(pl & p & A1 & A2 & A3 & A4)]; [left; exact A|]. right. exists pl, p. repeat split; auto.
Qed.

Theorem file_forest : forest F spine_starts.
Proof.
  destruct starts_exact as (_ & SE). constructor.
  - intros t u I. cbn [file_of sf_next sf_lines] in *. destruct (next_line t u I) as (p & q & links & adds & (A1 & A2 & A3 & A4 & A5 & A6) & _). split; [exact A5|]. apply nth_error_lt in A2. exact A2.
  - intros t t' j j' u N N' E E'. cbn [file_of sf_next] in N, N'.
    destruct (next_line t u (nth_error_In _ _ N)) as (p & q & links & adds & AD & R & ST & I & NX & PV).
    destruct (next_line t' u (nth_error_In _ _ N')) as (p' & q' & links' & adds' & AD' & R' & ST' & I' & NX' & PV').
    destruct (adjacent_prev_unique _ _ _ _ _ _ _ _ AD AD') as (EL & <- & <-). rewrite ST in ST'. injection ST' as <-.
    assert (ES : snd t = snd t').
    { destruct (Nat.lt_trichotomy (snd t) (snd t')) as [L|[L|L]]; [|exact L|]; exfalso.
      - assert (X := right_source_ends _ _ _ _ _ _ _ _ _ AD' R' I I' L). rewrite <- surjective_pairing in X. congruence.
      - assert (X := right_source_ends _ _ _ _ _ _ _ _ _ AD R I' I L). rewrite <- surjective_pairing in X. congruence. }
    assert (ET : t = t') by (destruct t, t'; cbn in EL, ES; congruence). subst t'. split; [reflexivity|].
    assert (ND : NoDup (nextTokens g t)).
    { rewrite NX. apply FinFun.Injective_map_NoDup; [intros x y X; congruence|]. apply succs_nodup. apply (rule_nodup _ _ _ _ _ _ R). }
    rewrite NoDup_nth_error in ND. apply ND; [apply nth_error_Some; rewrite N; discriminate|congruence].
  - intros s t I X. exfalso. cbn [file_of sf_next] in X. destruct (next_line t s X) as (p & q & links & adds & AD & R & ST & J & _).
    unfold spine_starts in I. apply file_exclusives_in in I. destruct I as (l & _ & N & S1 & SB). rewrite Nat.sub_0_r in N. assert (l = q) as -> by (destruct AD as (_ & A2 & _); congruence).
    apply (SE _ _ _ _ _ _ _ AD R) in SB. destruct (rule_covers _ _ _ _ _ _ R _ (reads_line p) (snd s)) as [(_ & NL)|(NA & _)]; [|exact (NL _ J)|exact (NA SB)].
    destruct (rule_range _ _ _ _ _ _ R) as (RG & _). apply RG in J. lia.
  - apply file_exclusives_nodup.
  - intros s I. cbn [file_of sf_lines]. apply file_exclusives_in in I. destruct I as (l & _ & N & _). rewrite Nat.sub_0_r in N. apply nth_error_lt in N. exact N.
  - intros t IV. cbn [file_of sf_next]. destruct (nextTokens g t) as [|u r] eqn:NT; [reflexivity|].
    destruct (next_line t u ltac:(rewrite NT; left; reflexivity)) as (p & q & links & adds & AD & R & ST & I & NX & _). destruct r as [|w r]; [reflexivity|]. exfalso.
    destruct t as [ln a]. cbn [fst snd] in *. apply (is_v_of ln p a (proj1 AD)) in IV. rewrite NT in NX. assert (ND := succs_nodup links a (proj1 (rule_nodup _ _ _ _ _ _ R))).
    destruct (succs links a) as [|b [|b' s]] eqn:SU; [discriminate|discriminate|]. assert (b = b'); [|subst; inversion ND as [|? ? NI _]; apply NI; left; reflexivity].
    apply (rule_merge_one _ _ _ _ _ _ R _ (reads_line p) a b b' IV); apply succs_in; rewrite SU; cbn [In]; auto.
Qed.
Theorem file_back t u : ends F t = false -> next0 F t = Some u -> prev0 F u = Some t.
Proof.
  intros E X. unfold next0, prev0 in *. cbn [file_of sf_next sf_prev] in *.
  assert (I : In u (nextTokens g t)) by (destruct (nextTokens g t); [discriminate|]; injection X as ->; left; reflexivity).
  destruct (next_line t u I) as (p & q & links & adds & AD & R & ST & J & NX & PV). rewrite PV. destruct (hd_error (preds links (snd u))) as [a0|] eqn:HD.
  - assert (J0 : In (a0, snd u) links) by (apply preds_in; destruct (preds links (snd u)); [discriminate|]; injection HD as ->; left; reflexivity).
    assert (LE := rule_first_source _ _ _ _ _ _ R _ _ _ HD J). destruct (Nat.eq_dec a0 (snd t)) as [->|NE].
    + destruct (preds links (snd u)); [discriminate|]. injection HD as ->. destruct t. reflexivity.
    + exfalso. assert (Z := right_source_ends _ _ _ _ _ _ _ _ _ AD R J0 J ltac:(lia)). rewrite <- surjective_pairing in Z. congruence.
  - apply preds_in in J. destruct (preds links (snd u)); [contradiction|discriminate].
Qed.
(** Every token is reached from the start of a spine. *)
Theorem file_reached n : forall t, fst t <= n -> in_file lines t -> exists s, In s spine_starts /\ tree F s t.
Proof.
  induction n as [n IH] using lt_wf_ind. intros t L (l & N & S1 & B). destruct (line_above (fst t) l N S1) as [FI|(pl & p & AD)].
  - exists t. split; [|apply tree_refl]. unfold spine_starts. apply file_exclusives_in. exists l. rewrite Nat.sub_0_r. split; [lia|]. split; [exact N|]. split; [exact S1|].
    destruct (nth_error (tokens l) (snd t)) as [e|] eqn:E; [|apply nth_error_None in E; lia]. exists e. split; [exact E|]. apply (HO l); [|eapply nth_error_In; exact E].
    destruct first_spined as (k & l0 & rest & SP & NK & SK & BK & _). assert (k = fst t) as ->.
    { destruct (Nat.lt_trichotomy k (fst t)) as [Z|[Z|Z]]; [specialize (FI k l0 Z NK); congruence|exact Z|specialize (BK (fst t) l Z N); congruence]. }
    rewrite SP. cbn. congruence.
  - destruct (line_rule _ _ _ _ AD) as (links & adds & R & ST & NX & PV). destruct (rule_covers _ _ _ _ _ _ R _ (reads_line p) (snd t) ltac:(lia)) as [(I & _)|(_ & a & I & NT & NV)].
    + exists t. split; [|apply tree_refl]. unfold spine_starts. apply file_exclusives_in. exists l. rewrite Nat.sub_0_r. split; [lia|]. split; [exact N|]. split; [exact S1|]. eapply added_start; eassumption.
    + destruct (rule_range _ _ _ _ _ _ R) as (RG & _). assert (PLT : pl < fst t) by apply AD.
      destruct (IH pl ltac:(lia) (pl, a) (le_n _)) as (s & S2 & T2).
      { exists p. cbn [fst snd]. split; [apply AD|]. split; [apply AD|]. apply RG in I. lia. }
      exists s. split; [exact S2|]. econstructor; [exact T2|apply (continues pl p a); [apply AD|exact NT|exact NV]|].
      cbn [file_of sf_next]. rewrite NX. apply in_map_iff. exists (snd t). split; [destruct t; reflexivity|]. apply succs_in. exact I.
Qed.
Theorem file_strands : exists l, strands_of lines infos fin g = Some l /\ Permutation l (all_strands F spine_starts).
Proof.
  unfold strands_of. destruct starts_exact as (E & _). rewrite E. apply (analyzeStrands_perm F spine_starts).
Qed.
End File.
