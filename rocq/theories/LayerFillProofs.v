(** Lemmas about the contents of an exported MEI layer. *)
From Coq Require Import List QArith Lqa Lia Bool.
Import ListNotations.
From Verif Require Import DurationModel DurationProofs LayerFillModel.
Local Close Scope Q_scope.

Fixpoint total_dur (its : list litem) : Q := match its with [] => 0%Q | i :: r => (item_dur i + total_dur r)%Q end.
Lemma total_dur_app a b : (total_dur (a ++ b) == total_dur a + total_dur b)%Q.
Proof. induction a as [|i a IH]; cbn; [lra|]. rewrite IH. lra. Qed.

(** An item that stands at position [p] in the layer stands where it should. *)
Definition placed (i : litem) (p : Q) : Prop :=
  match i with Space d => True | Obj o => (p == o_off o)%Q | Full c | Same c => (p == c_off c)%Q end.
Fixpoint good (p : Q) (its : list litem) : Prop :=
  match its with [] => True | i :: r => placed i p /\ good (p + item_dur i)%Q r end.
Lemma placed_compat i p q : (p == q)%Q -> placed i p -> placed i q.
Proof. intros E. destruct i; cbn; intros H; try exact I; rewrite <- E; exact H. Qed.
Lemma good_compat its : forall p q, (p == q)%Q -> good p its -> good q its.
Proof.
  induction its as [|i r IH]; intros p q E H; [exact I|]. destruct H as [H1 H2]. split; [eapply placed_compat; eassumption|].
  eapply IH; [|exact H2]. rewrite E. reflexivity.
Qed.
Lemma good_app a : forall p b, good p a -> good (p + total_dur a)%Q b -> good p (a ++ b).
Proof.
  induction a as [|i a IH]; intros p b A B; cbn in *; [eapply good_compat; [|exact B]; lra|].
  destruct A as [A1 A2]. split; [exact A1|]. apply IH; [exact A2|]. eapply good_compat; [|exact B]. lra.
Qed.
Lemma good_positions its : forall p, good p its <-> Forall (fun x => placed (fst x) (snd x)) (positions p its).
Proof.
  induction its as [|i r IH]; intros p; cbn; [split; [constructor|auto]|]. rewrite IH. split.
  - intros [A B]. constructor; assumption.
  - intros H. inversion H; subst. auto.
Qed.

Lemma spaces_total g : (total_dur (spaces g) == g)%Q.
Proof.
  unfold spaces. destruct (getPowerOfTwoQuarterLengthsWithDotsAddingTo g) as [l|] eqn:S; [|destruct (split_total _ S)].
  apply split_adds in S. destruct S as [S _]. rewrite <- S. clear S. induction l as [|d l IH]; cbn; [lra|]. rewrite IH. unfold total. cbn. lra.
Qed.
Lemma spaces_only g i : In i (spaces g) -> exists d, i = Space d.
Proof.
  unfold spaces. destruct (getPowerOfTwoQuarterLengthsWithDotsAddingTo g) as [l|]; [|intros []].
  intros H. apply in_map_iff in H. destruct H as (d & <- & _). eauto.
Qed.
Lemma only_spaces_good l : (forall i, In i l -> exists d, i = Space d) -> forall p, good p l.
Proof.
  induction l as [|i l IH]; intros H p; [exact I|]. split.
  - destruct (H i (or_introl eq_refl)) as (d & ->). exact I.
  - apply IH. intros j J. apply H. right. exact J.
Qed.

(** The changes at one place. *)
Definition only_changes_at (off : Q) (its : list litem) : Prop :=
  Forall (fun i => match i with Full c | Same c => c_off c == off | _ => False end)%Q its.
Lemma changes_good off its : only_changes_at off its -> (total_dur its == 0)%Q /\ forall p, (p == off)%Q -> good p its.
Proof.
  induction its as [|i r IH]; intros H; [split; [reflexivity|intros; exact I]|].
  inversion H as [|? ? H1 H2]; subst. destruct (IH H2) as [T G]. destruct i as [d|o|c|c]; try contradiction; cbn; (split; [lra|]).
  - intros p E. split; [lra|]. apply G. lra.
  - intros p E. split; [lra|]. apply G. lra.
Qed.
Lemma put_change_at em c it em1 off : put_change em c = (it, em1) -> Qeq_bool (c_off c) off = true ->
  match it with Full c | Same c => (c_off c == off)%Q | _ => False end.
Proof. unfold put_change. intros H E. apply Qeq_bool_iff in E. destruct (existsb _ _); injection H as <- <-; exact E. Qed.
Lemma changes_before_at off cs : forall em its em2 r, changes_before off em cs = (its, em2, r) -> only_changes_at off its.
Proof.
  induction cs as [|c cs IH]; intros em its em2 r H; cbn in H; [injection H as <- <- <-; constructor|].
  destruct (negb (Qle_bool (c_off c) off)); [injection H as <- <- <-; constructor|].
  destruct (Qeq_bool (c_off c) off) eqn:E; [|eapply IH; eassumption].
  destruct (put_change em c) as [it em1] eqn:P. destruct (changes_before off em1 cs) as [[its' em2'] r'] eqn:CB.
  injection H as <- <- <-. constructor; [eapply put_change_at; eassumption|eapply IH; eassumption].
Qed.
Lemma changes_at_end_at off cs : forall em its em2, changes_at_end off em cs = (its, em2) -> only_changes_at off its.
Proof.
  induction cs as [|c cs IH]; intros em its em2 H; cbn in H; [injection H as <- <-; constructor|].
  destruct (Qeq_bool (c_off c) off) eqn:E; [|eapply IH; eassumption].
  destruct (put_change em c) as [it em1] eqn:P. destruct (changes_at_end off em1 cs) as [its' em2'] eqn:CB.
  injection H as <- <-. constructor; [eapply put_change_at; eassumption|eapply IH; eassumption].
Qed.

(** The objects follow one another: each begins at or after the end of the one
    before.  (An object that is not written takes no time.) *)
Fixpoint follows (last : Q) (os : list lobj) : Prop :=
  match os with
  | [] => True
  | o :: r => (last <= o_off o)%Q /\ (0 <= o_dur o)%Q /\ follows (if o_known o then o_off o + o_dur o else o_off o)%Q r
  end.
Lemma follows_compat os : forall a b, (a == b)%Q -> follows a os -> follows b os.
Proof. induction os as [|o os IH]; intros a b E H; [exact I|]. destruct H as (H1 & H2 & H3). repeat split; [lra|exact H2|exact H3]. Qed.

Definition objs_of (its : list litem) : list lobj := flat_map (fun i => match i with Obj o => [o] | _ => [] end) its.
Definition changes_of (its : list litem) : list change := flat_map (fun i => match i with Full c | Same c => [c] | _ => [] end) its.
Lemma objs_of_spaces l : (forall i, In i l -> exists d, i = Space d) -> objs_of l = [] /\ changes_of l = [].
Proof.
  induction l as [|i l IH]; intros H; [auto|]. destruct (H i (or_introl eq_refl)) as (d & ->). cbn. apply IH. intros j J. apply H. right. exact J.
Qed.
Lemma objs_of_changes off its : only_changes_at off its -> objs_of its = [].
Proof. induction its as [|i r IH]; intros H; [reflexivity|]. inversion H; subst. destruct i; try contradiction; cbn; apply IH; assumption. Qed.

Lemma put_objs_good os : forall last em cs its l em2 cs2 p,
  put_objs last em cs os = (its, l, em2, cs2) -> follows last os -> (p == last)%Q ->
  good p its /\ (p + total_dur its == l)%Q /\ objs_of its = filter o_known os.
Proof.
  induction os as [|o os IH]; intros last em cs its l em2 cs2 p H F P; cbn [put_objs] in H.
  { injection H as <- <- <- <-. split; [exact I|]. split; [cbn; lra|reflexivity]. }
  destruct F as (F1 & F2 & F3).
  destruct (changes_before (o_off o) em cs) as [[ch em1] cs1] eqn:CB.
  set (gap := negb (Qle_bool (o_off o) last)) in *.
  set (sp := if gap then spaces (o_off o - last)%Q else []) in *.
  set (last1 := if gap then o_off o else last) in *.
  assert (L1 : (last1 == o_off o)%Q /\ (p + total_dur sp == o_off o)%Q /\ (forall i, In i sp -> exists d, i = Space d)).
  { unfold last1, sp, gap. destruct (Qle_bool (o_off o) last) eqn:Q; cbn.
    - apply Qle_bool_iff in Q. split; [lra|]. split; [lra|intros i []].
    - split; [reflexivity|]. split; [rewrite spaces_total; lra|apply spaces_only]. }
  clearbody sp last1. destruct L1 as (L1 & S1 & S2).
  destruct (put_objs (if o_known o then o_off o + o_dur o else last1)%Q em1 cs1 os) as [[[its' l'] em2'] cs2'] eqn:PO.
  injection H as <- <- <- <-.
  destruct (changes_good _ _ (changes_before_at _ _ _ _ _ _ CB)) as [CT CG].
  edestruct (IH _ _ _ _ _ _ _ (if o_known o then o_off o + o_dur o else last1)%Q PO) as (G & T & O); [|reflexivity|].
  { eapply follows_compat; [|exact F3]. destruct (o_known o); [reflexivity|symmetry; exact L1]. }
  destruct (objs_of_spaces _ S2) as [OS _]. pose proof (objs_of_changes _ _ (changes_before_at _ _ _ _ _ _ CB)) as OC.
  split; [|split].
  - apply good_app; [apply only_spaces_good; exact S2|]. eapply good_compat; [symmetry; exact S1|].
    apply good_app; [apply CG; reflexivity|]. eapply good_compat with (p := o_off o); [lra|].
    destruct (o_known o); cbn.
    + split; [reflexivity|exact G].
    + eapply good_compat; [exact L1|exact G].
  - rewrite !total_dur_app. destruct (o_known o); cbn in *; lra.
  - unfold objs_of in *. rewrite !flat_map_app, OS, OC, O. cbn. destruct (o_known o); reflexivity.
Qed.

(** Which changes are written. *)
Fixpoint ascending_changes (cs : list change) : Prop :=
  match cs with c :: ((d :: _) as r) => (c_off c <= c_off d)%Q /\ ascending_changes r | _ => True end.
Definition at_obj (os : list lobj) (c : change) : bool := existsb (fun o => Qeq_bool (c_off c) (o_off o)) os.

Lemma ascending_tail c cs : ascending_changes (c :: cs) -> ascending_changes cs /\ Forall (fun d => c_off c <= c_off d)%Q cs.
Proof.
  revert c. induction cs as [|d cs IH]; intros c H; [split; [exact I|constructor]|]. destruct H as [H1 H2]. split; [exact H2|].
  constructor; [exact H1|]. destruct (IH d H2) as [_ F]. eapply Forall_impl; [|exact F]. cbn. intros; lra.
Qed.
Lemma put_change_of em c it em1 : put_change em c = (it, em1) ->
  match it with Full d | Same d => d = c | _ => False end.
Proof. unfold put_change. destruct (existsb _ _); intros H; injection H as <- <-; reflexivity. Qed.
Lemma changes_before_spec off cs : forall em its em2 r, changes_before off em cs = (its, em2, r) -> ascending_changes cs ->
  exists pop, cs = pop ++ r /\ changes_of its = filter (fun c => Qeq_bool (c_off c) off) pop /\
    Forall (fun c => c_off c <= off)%Q pop /\ Forall (fun c => off < c_off c)%Q r /\ ascending_changes r.
Proof.
  induction cs as [|c cs IH]; intros em its em2 r H A; cbn [changes_before] in H.
  { injection H as <- <- <-. exists []. repeat split; constructor. }
  destruct (Qle_bool (c_off c) off) eqn:Q; cbn [negb] in H.
  - apply Qle_bool_iff in Q. destruct (ascending_tail _ _ A) as [A' _].
    destruct (Qeq_bool (c_off c) off) eqn:E.
    + destruct (put_change em c) as [it em1] eqn:P. destruct (changes_before off em1 cs) as [[its' em2'] r'] eqn:CB.
      injection H as <- <- <-. destruct (IH _ _ _ _ CB A') as (pop & -> & C & F1 & F2 & F3).
      exists (c :: pop). split; [reflexivity|]. split.
      { cbn [filter]. rewrite E. rewrite <- C. apply put_change_of in P. destruct it; try contradiction; subst; reflexivity. }
      split; [constructor; assumption|]. auto.
    + destruct (IH _ _ _ _ H A') as (pop & -> & C & F1 & F2 & F3). exists (c :: pop). split; [reflexivity|].
      split; [cbn [filter]; rewrite E; exact C|]. split; [constructor; assumption|]. auto.
  - injection H as <- <- <-. exists []. split; [reflexivity|]. split; [reflexivity|]. split; [constructor|].
    assert (L : (off < c_off c)%Q).
    { destruct (Qlt_le_dec off (c_off c)) as [L|L]; [exact L|]. apply Qle_bool_iff in L. congruence. }
    split; [|exact A]. constructor; [exact L|]. destruct (ascending_tail _ _ A) as [_ F].
    eapply Forall_impl; [|exact F]. cbn. intros; lra.
Qed.
Lemma follows_ge os : forall last o, follows last os -> In o os -> (last <= o_off o)%Q.
Proof.
  induction os as [|x os IH]; intros last o F I; [destruct I|]. destruct F as (F1 & F2 & F3).
  destruct I as [->|I]; [exact F1|]. specialize (IH _ _ F3 I). destruct (o_known x); lra.
Qed.
Lemma filter_ext_Forall {A} (f g : A -> bool) l : Forall (fun x => f x = g x) l -> filter f l = filter g l.
Proof. induction 1 as [|x l E _ IH]; [reflexivity|]. cbn. rewrite E, IH. reflexivity. Qed.
Lemma put_objs_end os : forall last em cs its l em2 cs2, put_objs last em cs os = (its, l, em2, cs2) -> follows last os ->
  (last <= l)%Q /\ forall o, In o os -> (o_off o <= l)%Q.
Proof.
  induction os as [|o os IH]; intros last em cs its l em2 cs2 H F; cbn [put_objs] in H.
  { injection H as <- <- <- <-. split; [lra|intros o []]. }
  destruct F as (F1 & F2 & F3).
  destruct (changes_before (o_off o) em cs) as [[ch em1] cs1] eqn:CB.
  set (last1 := if negb (Qle_bool (o_off o) last) then o_off o else last) in *.
  assert (L1 : (last1 == o_off o)%Q).
  { unfold last1. destruct (Qle_bool (o_off o) last) eqn:Q; cbn; [apply Qle_bool_iff in Q; lra|reflexivity]. }
  clearbody last1.
  destruct (put_objs (if o_known o then o_off o + o_dur o else last1)%Q em1 cs1 os) as [[[its' l'] em2'] cs2'] eqn:PO.
  injection H as <- <- <- <-. edestruct (IH _ _ _ _ _ _ _ PO) as [A B].
  { eapply follows_compat; [|exact F3]. destruct (o_known o); [reflexivity|symmetry; exact L1]. }
  split; [destruct (o_known o); lra|]. intros x [<-|X]; [destruct (o_known o); lra|apply B; exact X].
Qed.
Lemma put_objs_changes os : forall last em cs its l em2 cs2,
  put_objs last em cs os = (its, l, em2, cs2) -> follows last os -> ascending_changes cs ->
  exists pop, cs = pop ++ cs2 /\ changes_of its = filter (at_obj os) pop /\
    Forall (fun c => exists o, In o os /\ c_off c <= o_off o)%Q pop /\
    Forall (fun c => forall o, In o os -> o_off o < c_off c)%Q cs2.
Proof.
  induction os as [|o os IH]; intros last em cs its l em2 cs2 H F A; cbn [put_objs] in H.
  { injection H as <- <- <- <-. exists []. split; [reflexivity|]. split; [reflexivity|]. split; [constructor|].
    apply Forall_forall. intros c _ o []. }
  destruct F as (F1 & F2 & F3).
  destruct (changes_before (o_off o) em cs) as [[ch em1] cs1] eqn:CB.
  set (sp := if negb (Qle_bool (o_off o) last) then spaces (o_off o - last)%Q else []) in *.
  assert (S2 : forall i, In i sp -> exists d, i = Space d).
  { unfold sp. destruct (Qle_bool (o_off o) last); cbn; [intros i []|apply spaces_only]. }
  set (last1 := if negb (Qle_bool (o_off o) last) then o_off o else last) in *.
  assert (L1 : (last1 == o_off o)%Q).
  { unfold last1. destruct (Qle_bool (o_off o) last) eqn:Q; cbn; [apply Qle_bool_iff in Q; lra|reflexivity]. }
  clearbody last1 sp.
  destruct (put_objs (if o_known o then o_off o + o_dur o else last1)%Q em1 cs1 os) as [[[its' l'] em2'] cs2'] eqn:PO.
  injection H as <- <- <- <-.
  destruct (changes_before_spec _ _ _ _ _ _ CB A) as (pop1 & -> & C1 & P1 & R1 & A1).
  edestruct (IH _ _ _ _ _ _ _ PO) as (pop2 & -> & C2 & P2 & R2); [|exact A1|].
  { eapply follows_compat; [|exact F3]. destruct (o_known o); [reflexivity|symmetry; exact L1]. }
  assert (GE : forall x, In x os -> (o_off o <= o_off x)%Q).
  { intros x X. pose proof (follows_ge _ _ _ F3 X). destruct (o_known o); lra. }
  exists (pop1 ++ pop2). split; [apply app_assoc|]. split; [|split].
  - destruct (objs_of_spaces _ S2) as [_ CS]. unfold changes_of in *. rewrite !flat_map_app, CS, C1, C2.
    replace (flat_map _ (if o_known o then [Obj o] else [])) with (@nil change) by (destruct (o_known o); reflexivity).
    cbn [app]. rewrite filter_app. f_equal.
    + apply filter_ext_Forall. eapply Forall_impl; [|exact P1]. cbn. intros c Hc.
      destruct (Qeq_bool (c_off c) (o_off o)) eqn:E; [reflexivity|]. cbn. symmetry. apply not_true_iff_false. intros X.
      apply existsb_exists in X. destruct X as (x & X & Ex). apply Qeq_bool_iff in Ex. specialize (GE _ X).
      apply Qeq_bool_neq in E. apply E. lra.
    + apply filter_ext_Forall. apply Forall_app in R1. destruct R1 as [R1 _]. eapply Forall_impl; [|exact R1]. cbn. intros c Hc.
      replace (Qeq_bool (c_off c) (o_off o)) with false; [reflexivity|].
      symmetry. apply not_true_iff_false. intros X. apply Qeq_bool_iff in X. lra.
  - apply Forall_app. split.
    + eapply Forall_impl; [|exact P1]. cbn. intros c Hc. exists o. auto.
    + eapply Forall_impl; [|exact P2]. cbn. intros c (x & X & Hx). exists x. auto.
  - apply Forall_app in R1. destruct R1 as [_ R1]. rewrite Forall_forall in *. intros c Hc x [<-|X]; [apply R1; exact Hc|apply R2; assumption].
Qed.
Lemma changes_at_end_of l cs : forall em its em2, changes_at_end l em cs = (its, em2) ->
  changes_of its = filter (fun c => Qeq_bool (c_off c) l) cs.
Proof.
  induction cs as [|c cs IH]; intros em its em2 H; cbn in H; [injection H as <- <-; reflexivity|]. cbn [filter].
  destruct (Qeq_bool (c_off c) l) eqn:E; [|eapply IH; eassumption].
  destruct (put_change em c) as [it em1] eqn:P. destruct (changes_at_end l em1 cs) as [its' em2'] eqn:CB.
  injection H as <- <-. rewrite <- (IH _ _ _ CB). apply put_change_of in P. destruct it; try contradiction; subst; reflexivity.
Qed.
Lemma changes_at_end_objs l cs em its em2 : changes_at_end l em cs = (its, em2) -> objs_of its = [].
Proof. intros H. eapply objs_of_changes. eapply changes_at_end_at. exact H. Qed.
(** The end of the layer does not depend on the changes. *)
Lemma put_objs_last os : forall last em cs its l em2 cs2 em' cs' , put_objs last em cs os = (its, l, em2, cs2) ->
  exists its' em2' cs2', put_objs last em' cs' os = (its', l, em2', cs2').
Proof.
  induction os as [|o os IH]; intros last em cs its l em2 cs2 em' cs' H; cbn [put_objs] in *.
  { injection H as <- <- <- <-. eauto. }
  destruct (changes_before (o_off o) em cs) as [[ch em1] cs1].
  destruct (changes_before (o_off o) em' cs') as [[ch' em1'] cs1'].
  match type of H with context [put_objs ?a em1 cs1 os] => destruct (put_objs a em1 cs1 os) as [[[its' l'] em2'] cs2'] eqn:PO end.
  injection H as <- <- <- <-. destruct (IH _ _ _ _ _ _ _ em1' cs1' PO) as (x & y & z & E). rewrite E. eauto.
Qed.

(** References and full changes. *)
Fixpoint flags (em : list nat) (its : list litem) : Prop :=
  match its with
  | [] => True
  | Full c :: r => ~ In (c_id c) em /\ flags (c_id c :: em) r
  | Same c :: r => In (c_id c) em /\ flags em r
  | _ :: r => flags em r
  end.
Fixpoint flagged (em : list nat) (its : list litem) : list nat :=
  match its with [] => em | Full c :: r => flagged (c_id c :: em) r | _ :: r => flagged em r end.
Lemma flags_app a : forall em b, flags em (a ++ b) <-> flags em a /\ flags (flagged em a) b.
Proof. induction a as [|i a IH]; intros em b; cbn; [intuition|]. destruct i; rewrite ?IH; intuition. Qed.
Lemma flagged_app a : forall em b, flagged em (a ++ b) = flagged (flagged em a) b.
Proof. induction a as [|i a IH]; intros em b; cbn; [reflexivity|]. destruct i; apply IH. Qed.
Lemma put_change_flags em c it em1 : put_change em c = (it, em1) -> flags em [it] /\ flagged em [it] = em1.
Proof.
  unfold put_change. destruct (existsb _ _) eqn:E; intros H; injection H as <- <-; cbn; (split; [|reflexivity]); (split; [|exact I]).
  - apply existsb_exists in E. destruct E as (x & X & Q). apply Nat.eqb_eq in Q. subst x. exact X.
  - intros X. apply not_true_iff_false in E. apply E. apply existsb_exists. exists (c_id c). split; [exact X|apply Nat.eqb_refl].
Qed.
Lemma changes_before_flags off cs : forall em its em2 r, changes_before off em cs = (its, em2, r) -> flags em its /\ flagged em its = em2.
Proof.
  induction cs as [|c cs IH]; intros em its em2 r H; cbn in H; [injection H as <- <- <-; split; [exact I|reflexivity]|].
  destruct (negb (Qle_bool (c_off c) off)); [injection H as <- <- <-; split; [exact I|reflexivity]|].
  destruct (Qeq_bool (c_off c) off) eqn:E; [|eapply IH; eassumption].
  destruct (put_change em c) as [it em1] eqn:P. destruct (changes_before off em1 cs) as [[its' em2'] r'] eqn:CB.
  injection H as <- <- <-. destruct (put_change_flags _ _ _ _ P) as [P1 P2]. destruct (IH _ _ _ _ CB) as [I1 I2].
  change (it :: its') with ([it] ++ its'). rewrite flags_app, flagged_app, P2. auto.
Qed.
Lemma changes_at_end_flags off cs : forall em its em2, changes_at_end off em cs = (its, em2) -> flags em its /\ flagged em its = em2.
Proof.
  induction cs as [|c cs IH]; intros em its em2 H; cbn in H; [injection H as <- <-; split; [exact I|reflexivity]|].
  destruct (Qeq_bool (c_off c) off) eqn:E; [|eapply IH; eassumption].
  destruct (put_change em c) as [it em1] eqn:P. destruct (changes_at_end off em1 cs) as [its' em2'] eqn:CB.
  injection H as <- <-. destruct (put_change_flags _ _ _ _ P) as [P1 P2]. destruct (IH _ _ _ CB) as [I1 I2].
  change (it :: its') with ([it] ++ its'). rewrite flags_app, flagged_app, P2. auto.
Qed.
Lemma spaces_flags l em : (forall i, In i l -> exists d, i = Space d) -> flags em l /\ flagged em l = em.
Proof.
  induction l as [|i l IH]; intros H; [split; [exact I|reflexivity]|]. destruct (H i (or_introl eq_refl)) as (d & ->). cbn.
  apply IH. intros j J. apply H. right. exact J.
Qed.
Lemma put_objs_flags os : forall last em cs its l em2 cs2, put_objs last em cs os = (its, l, em2, cs2) ->
  flags em its /\ flagged em its = em2.
Proof.
  induction os as [|o os IH]; intros last em cs its l em2 cs2 H; cbn [put_objs] in H.
  { injection H as <- <- <- <-. split; [exact I|reflexivity]. }
  destruct (changes_before (o_off o) em cs) as [[ch em1] cs1] eqn:CB.
  set (sp := if negb (Qle_bool (o_off o) last) then spaces (o_off o - last)%Q else []) in *.
  assert (S2 : forall i, In i sp -> exists d, i = Space d).
  { unfold sp. destruct (Qle_bool (o_off o) last); cbn; [intros i []|apply spaces_only]. }
  clearbody sp.
  match type of H with context [put_objs ?a em1 cs1 os] => destruct (put_objs a em1 cs1 os) as [[[its' l'] em2'] cs2'] eqn:PO end.
  injection H as <- <- <- <-. destruct (changes_before_flags _ _ _ _ _ _ CB) as [C1 C2]. destruct (IH _ _ _ _ _ _ _ PO) as [I1 I2].
  destruct (spaces_flags _ em S2) as [S3 S4].
  rewrite !flags_app, !flagged_app, S4, C2.
  destruct (o_known o); cbn; auto.
Qed.
Lemma makeLayer_flags v em cs os its em2 : makeLayer v em cs os = (its, em2) -> flags em its /\ flagged em its = em2.
Proof.
  unfold makeLayer. destruct (put_objs _ em cs os) as [[[i1 l] em1] cs1] eqn:PO. destruct (changes_at_end l em1 cs1) as [fin em3] eqn:CE.
  intros H. injection H as <- <-. destruct (put_objs_flags _ _ _ _ _ _ _ _ PO) as [P1 P2]. destruct (changes_at_end_flags _ _ _ _ _ CE) as [C1 C2].
  assert (S2 : forall i, In i (if Qeq_bool v 0 then [] else spaces v) -> exists d, i = Space d) by (destruct (Qeq_bool v 0); [intros i []|apply spaces_only]).
  destruct (spaces_flags _ em S2) as [S3 S4]. rewrite !flags_app, !flagged_app, S4, P2. auto.
Qed.
Lemma makeLayers_flags cs ls : forall em, flags em (concat (makeLayers em cs ls)).
Proof.
  induction ls as [|[v os] ls IH]; intros em; cbn; [exact I|]. destruct (makeLayer v em cs os) as [its em1] eqn:M. cbn.
  destruct (makeLayer_flags _ _ _ _ _ _ M) as [M1 M2]. rewrite flags_app, M2. auto.
Qed.
