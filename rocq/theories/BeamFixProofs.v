(** Proofs about BeamFixModel.v: the run as a list of single changes. *)
From Coq Require Import List Bool Arith Lia.
From Verif Require Import BeamFixModel.
Import ListNotations.

(** ** Changes *)
Inductive op := OPair (p x : nat) | OEnd (x : nat).
Definition target (o : op) : nat := match o with OPair p _ => p | OEnd x => x end.
Definition stop_all (b : beams) : beams := map (fun b : nat * btype => (fst b, stopped (snd b))) b.
Definition step (one : bool) (h : heap) (o : op) : heap :=
  match o with
  | OPair p x => upd h p (fix_prev one (h x) (h p))
  | OEnd x => upd h x (stop_all (h x))
  end.
Definition run (one : bool) (ops : list op) (h : heap) : heap := fold_left (step one) ops h.

Fixpoint voice_ops (prev : option nat) (notes : list nat) : list op :=
  match notes with
  | [] => []
  | x :: notes' => match prev with None => [] | Some p => [OPair p x] end ++ voice_ops (Some x) notes'
  end.
Lemma voice_run one notes : forall prev h, fix_voice one h prev notes = run one (voice_ops prev notes) h.
Proof.
  induction notes as [|x notes IH]; intros prev h; [reflexivity|]. cbn [fix_voice voice_ops]. unfold run in *.
  rewrite fold_left_app, IH. destruct prev; reflexivity.
Qed.

(** The voices of a part in the order of the loop, each with the mark of the last measure. *)
Definition entry := (bool * (key * list nat))%type.
Fixpoint entries (ms : part) : list entry :=
  match ms with
  | [] => []
  | m :: ms' => map (fun v => (match ms' with [] => true | _ => false end, v)) m ++ entries ms'
  end.
Definition end_ops (isLast : bool) (notes : list nat) : list op :=
  if isLast then match last_note notes with None => [] | Some x => [OEnd x] end else [].
Definition end_lasts (isLast : bool) (k : key) (notes : list nat) (l : lasts) : lasts :=
  if isLast then l else set_last l k (last_note notes).
Fixpoint entry_ops (l : lasts) (es : list entry) : list op :=
  match es with
  | [] => []
  | (isLast, (k, notes)) :: es' => voice_ops (l k) notes ++ end_ops isLast notes ++ entry_ops (end_lasts isLast k notes l) es'
  end.
Fixpoint entry_lasts (l : lasts) (es : list entry) : lasts :=
  match es with [] => l | (isLast, (k, notes)) :: es' => entry_lasts (end_lasts isLast k notes l) es' end.

Lemma run_app one a b h : run one (a ++ b) h = run one b (run one a h).
Proof. unfold run. apply fold_left_app. Qed.
Lemma entry_ops_app l a b : entry_ops l (a ++ b) = entry_ops l a ++ entry_ops (entry_lasts l a) b.
Proof.
  revert l. induction a as [|[i [k notes]] a IH]; intros l; [reflexivity|]. cbn [app entry_ops entry_lasts]. rewrite IH, !app_assoc. reflexivity.
Qed.
Lemma measure_run one isLast m : forall h l,
  fix_measure one isLast (h, l) m
  = (run one (entry_ops l (map (fun v => (isLast, v)) m)) h, entry_lasts l (map (fun v => (isLast, v)) m)).
Proof.
  induction m as [|[k notes] m IH]; intros h l; [reflexivity|]. cbn [fix_measure map entry_ops entry_lasts].
  rewrite voice_run. unfold end_voice. destruct isLast; cbn [end_ops end_lasts].
  - destruct (last_note notes) as [x|]; rewrite IH, run_app; reflexivity.
  - rewrite IH, run_app. reflexivity.
Qed.
Lemma measures_run one ms : forall h l, fst (fix_measures one (h, l) ms) = run one (entry_ops l (entries ms)) h.
Proof.
  induction ms as [|m ms IH]; intros h l; [reflexivity|]. cbn [fix_measures entries].
  rewrite measure_run, IH, entry_ops_app, run_app. reflexivity.
Qed.
Definition part_ops (p : part) : list op := entry_ops (fun _ => None) (entries p).
Lemma fixup_run parts h : fixupBadBeams parts h = run (Nat.eqb (length parts) 1) (concat (map part_ops parts)) h.
Proof.
  unfold fixupBadBeams. generalize (Nat.eqb (length parts) 1) as one. intros one. revert h.
  induction parts as [|p parts IH]; intros h; [reflexivity|]. cbn [fold_left map concat]. rewrite IH, run_app, measures_run. reflexivity.
Qed.

(** ** Only continues and stops are changed *)
Definition similar (b b' : nat * btype) : Prop :=
  fst b = fst b' /\ (snd b = snd b' \/ ((snd b = BContinue \/ snd b = BStop) /\ (snd b' = BContinue \/ snd b' = BStop))).
Definition alike (a b : beams) : Prop := Forall2 similar a b.
Lemma alike_refl a : alike a a.
Proof. induction a; constructor; [split; auto|assumption]. Qed.
Lemma similar_trans a b c : similar a b -> similar b c -> similar a c.
Proof. unfold similar. intros [E1 H1] [E2 H2]. split; [congruence|]. destruct H1 as [H1|[H1 H1']], H2 as [H2|[H2 H2']]; try (left; congruence); right; split; try assumption; try (rewrite H1; assumption); try (rewrite <- H2; assumption). Qed.
Lemma alike_trans a b c : alike a b -> alike b c -> alike a c.
Proof.
  intros H. revert c. induction H as [|x y a b S H IH]; intros c Hc; inversion Hc; subst; constructor; [eapply similar_trans; eassumption|].
  apply IH. assumption.
Qed.
Lemma alike_map f b : (forall x, similar x (f x)) -> alike b (map f b).
Proof. intros H. induction b; constructor; auto. Qed.
Lemma similar_stop b : similar b (fst b, stopped (snd b)).
Proof. destruct b as [n []]; split; try reflexivity; cbn; auto. Qed.
Lemma similar_fix one this b : similar b (fix_beam one this b).
Proof.
  destruct b as [n t]. unfold fix_beam. destruct (by_number n this) as [[]|]; try (split; [reflexivity|left; reflexivity]);
  try exact (similar_stop (n, t)). destruct one, t; split; cbn; auto.
Qed.
Lemma fix_prev_map one this prev : fix_prev one this prev = map (fix_beam one this) prev.
Proof.
  destruct this as [|x this]; [|reflexivity]. cbn [fix_prev]. apply map_ext. intros [n t]. reflexivity.
Qed.
Lemma step_alike one h o x : alike (h x) (step one h o x).
Proof.
  destruct o as [p y|y]; cbn [step]; unfold upd; (destruct (Nat.eqb x _) eqn:E; [apply Nat.eqb_eq in E; subst|apply alike_refl]).
  - rewrite fix_prev_map. apply alike_map, similar_fix.
  - apply alike_map. exact similar_stop.
Qed.
Lemma run_alike one ops : forall h x, alike (h x) (run one ops h x).
Proof.
  induction ops as [|o ops IH]; intros h x; [apply alike_refl|]. eapply alike_trans; [apply step_alike|]. apply IH.
Qed.
Lemma alike_number a b n : alike a b -> match by_number n a with
  | None => by_number n b = None
  | Some t => exists t', by_number n b = Some t' /\ (t = BStart <-> t' = BStart) end.
Proof.
  induction 1 as [|[m t] [m' t'] a b [E S] H IH]; [reflexivity|]. cbn [fst snd] in *. subst m'. cbn [by_number].
  destruct (Nat.eqb m n); [|exact IH]. exists t'. split; [reflexivity|]. destruct S as [->|[[-> | ->] [-> | ->]]]; split; congruence.
Qed.

(** ** A beam that continues goes on *)
Definition satisfied (h : heap) (o : op) : Prop :=
  match o with
  | OPair p x => forall n, In (n, BContinue) (h p) -> exists t, by_number n (h x) = Some t /\ t <> BStart
  | OEnd x => forall n, ~ In (n, BContinue) (h x)
  end.
Lemma stop_all_none b n : ~ In (n, BContinue) (stop_all b).
Proof. unfold stop_all. rewrite in_map_iff. intros ((m & t) & E & _). destruct t; discriminate. Qed.
Lemma fix_continue one this b n : fix_beam one this b = (n, BContinue) -> exists t, by_number n this = Some t /\ t <> BStart.
Proof.
  destruct b as [m t]. unfold fix_beam. destruct (by_number m this) as [u|] eqn:E.
  - destruct u; intros H; injection H as H1 H2; subst m; try (exists BContinue; split; [assumption|discriminate]);
    try (exists BStop; split; [assumption|discriminate]); try (exists BPartial; split; [assumption|discriminate]); try (exists BNone; split; [assumption|discriminate]).
    destruct t; discriminate.
  - intros H. injection H as H1 H2. destruct t; discriminate.
Qed.
Lemma step_satisfied one h o : satisfied (step one h o) o.
Proof.
  destruct o as [p x|x]; cbn [step satisfied]; intros n.
  - intros H. assert (A : alike (h x) (step one h (OPair p x) x)) by apply step_alike. cbn [step] in A.
    unfold upd in H at 1. rewrite Nat.eqb_refl, fix_prev_map in H. apply in_map_iff in H as (b & E & _).
    apply fix_continue in E as (t & E & N). pose proof (alike_number _ _ n A) as B. rewrite E in B. destruct B as (t' & -> & I).
    exists t'. split; [reflexivity|]. rewrite <- I. exact N.
  - unfold upd. rewrite Nat.eqb_refl. apply stop_all_none.
Qed.
Lemma step_other one h o x : target o <> x -> step one h o x = h x.
Proof. intros H. destruct o; cbn in *; unfold upd; (destruct (Nat.eqb x _) eqn:E; [apply Nat.eqb_eq in E; congruence|reflexivity]). Qed.
Lemma run_other one ops : forall h x, ~ In x (map target ops) -> run one ops h x = h x.
Proof.
  induction ops as [|o ops IH]; intros h x H; [reflexivity|]. cbn in H. cbn. unfold run in IH. rewrite IH by tauto. apply step_other. tauto.
Qed.
Lemma satisfied_run one ops h o : ~ In (target o) (map target ops) -> satisfied h o -> satisfied (run one ops h) o.
Proof.
  intros N. destruct o as [p x|x]; cbn [satisfied target] in *; intros H n; rewrite (run_other one ops h _ N).
  - intros I. destruct (H n I) as (t & E & Nt). pose proof (alike_number _ _ n (run_alike one ops h x)) as B. rewrite E in B.
    destruct B as (t' & B & J). exists t'. split; [exact B|]. rewrite <- J. exact Nt.
  - apply H.
Qed.
Theorem run_satisfied one ops h : NoDup (map target ops) -> forall o, In o ops -> satisfied (run one ops h) o.
Proof.
  intros N o H. apply in_split in H as (a & b & ->). rewrite map_app in N. cbn [map] in N.
  rewrite run_app. change (o :: b) with ([o] ++ b). rewrite run_app. apply satisfied_run.
  - apply NoDup_remove_2 in N. intros I. apply N, in_or_app. right. exact I.
  - apply step_satisfied.
Qed.

(** ** What needs no change is not changed *)
Definition content (one : bool) (h : heap) (o : op) : Prop :=
  satisfied h o /\ (one = true -> match o with OPair p x => forall n, In (n, BStop) (h p) -> by_number n (h x) <> Some BStop | _ => True end).
Lemma map_same {A} (f : A -> A) l : (forall x, In x l -> f x = x) -> map f l = l.
Proof. intros H. induction l as [|x l IH]; [reflexivity|]. cbn. rewrite H by (left; reflexivity). f_equal. apply IH. intros y Hy. apply H. right. exact Hy. Qed.
Lemma step_content one h o : content one h o -> forall x, step one h o x = h x.
Proof.
  intros [S C] x. destruct o as [p y|y]; cbn [step] in *; unfold upd; (destruct (Nat.eqb x _) eqn:E; [apply Nat.eqb_eq in E; subst|reflexivity]).
  - rewrite fix_prev_map. apply map_same. intros [n t] I. cbn [satisfied] in S. unfold fix_beam.
    destruct t; try (destruct (by_number n (h y)) as [[]|]; destruct one; reflexivity).
    + destruct (S n I) as (t & -> & N). destruct t; try congruence; destruct one; reflexivity.
    + destruct (by_number n (h y)) as [[]|] eqn:B; try reflexivity. destruct one; [|reflexivity]. destruct (C eq_refl n I B).
  - apply map_same. intros [n t] I. cbn [satisfied] in S. destruct t; try reflexivity. destruct (S n I).
Qed.
Lemma content_ext one h h' o : (forall x, h x = h' x) -> content one h o -> content one h' o.
Proof.
  intros E [S C]. split.
  - destruct o; cbn [satisfied] in *; intros n; rewrite <- !E; apply S.
  - intros O. specialize (C O). destruct o; [|exact I]. intros n. rewrite <- !E. apply C.
Qed.
Theorem run_content one ops : forall h, (forall o, In o ops -> content one h o) -> forall x, run one ops h x = h x.
Proof.
  induction ops as [|o ops IH]; intros h H x; [reflexivity|]. cbn. unfold run in IH. 
  assert (E : forall x, step one h o x = h x) by (apply step_content, H; left; reflexivity).
  rewrite IH; [apply E|]. intros o' I. apply (content_ext one h); [intros; symmetry; apply E|]. apply H. right. exact I.
Qed.

(** ** Every note is changed at most once *)
Definition notes_of (es : list entry) : list nat := concat (map (fun e : entry => snd (snd e)) es).
Definition cnt (a : nat) (l : list nat) : nat := count_occ Nat.eq_dec l a.
Lemma cnt_app a l l' : cnt a (l ++ l') = cnt a l + cnt a l'.
Proof. apply count_occ_app. Qed.
Lemma cnt_one a x : cnt a [x] = if Nat.eqb x a then 1 else 0.
Proof. unfold cnt, count_occ. destruct (Nat.eq_dec x a) as [E|E]; destruct (Nat.eqb_spec x a); congruence. Qed.
Lemma voice_targets notes : forall prev, map target (voice_ops prev notes)
  = match notes with [] => [] | _ => match prev with None => [] | Some p => [p] end end ++ removelast notes.
Proof.
  induction notes as [|x notes IH]; intros prev; [reflexivity|]. cbn [voice_ops]. rewrite map_app, IH.
  destruct notes as [|y notes]; destruct prev; reflexivity.
Qed.
Lemma last_note_split notes : match last_note notes with None => notes = [] | Some x => notes = removelast notes ++ [x] end.
Proof.
  unfold last_note. destruct (rev notes) as [|x r] eqn:E.
  - apply (f_equal (@rev nat)) in E. rewrite rev_involutive in E. exact E.
  - apply (f_equal (@rev nat)) in E. rewrite rev_involutive in E. cbn [rev] in E. rewrite E, removelast_last. reflexivity.
Qed.
Definition keys (es : list entry) : list key := map (fun e : entry => fst (snd e)) es.
Fixpoint ends_once (es : list entry) : Prop :=
  match es with
  | [] => True
  | (isLast, (k, _)) :: es' => (isLast = true -> ~ In k (keys es')) /\ ends_once es'
  end.
Definition held (a : nat) (l : lasts) : Prop := exists k, l k = Some a.
Definition wanted (a : nat) (l : lasts) (es : list entry) : Prop := exists k, In k (keys es) /\ l k = Some a.
Definition single (a : nat) (l : lasts) : Prop := forall k k', l k = Some a -> l k' = Some a -> k = k'.
Lemma targets_once_aux a es : forall l, ends_once es -> single a l -> cnt a (notes_of es) <= 1 -> (held a l -> cnt a (notes_of es) = 0) ->
  cnt a (map target (entry_ops l es)) <= 1 /\ (~ wanted a l es -> cnt a (notes_of es) = 0 -> cnt a (map target (entry_ops l es)) = 0).
Proof.
  induction es as [|[isLast [k notes]] es IH]; intros l OO S C H; [cbn; lia|]. destruct OO as [O1 O2].
  cbn [notes_of map concat snd] in *. fold (notes_of es) in *. rewrite cnt_app in *. cbn [entry_ops]. rewrite !map_app, !cnt_app, voice_targets, cnt_app.
  pose proof (last_note_split notes) as L.
  assert (HL : held a (end_lasts isLast k notes l) -> (isLast = true /\ held a l) \/ (isLast = false /\ (last_note notes = Some a \/ (exists k', k' <> k /\ l k' = Some a)))).
  { intros (k' & E). unfold end_lasts in E. destruct isLast; [left; split; [reflexivity|exists k'; exact E]|]. right. split; [reflexivity|].
    unfold set_last in E. destruct (Nat.eqb k' k) eqn:Q; [left; exact E|]. right. exists k'. split; [apply Nat.eqb_neq; exact Q|exact E]. }
  assert (CN : cnt a notes = cnt a (removelast notes) + match last_note notes with Some x => cnt a [x] | None => 0 end).
  { destruct (last_note notes) as [x|]; [rewrite L at 1; apply cnt_app|rewrite L; reflexivity]. }
  assert (LA : last_note notes = Some a -> cnt a notes = cnt a (removelast notes) + 1).
  { intros E. rewrite CN, E, cnt_one, Nat.eqb_refl. reflexivity. }
  assert (SL : single a (end_lasts isLast k notes l)).
  { unfold end_lasts. destruct isLast; [exact S|]. intros k1 k2. unfold set_last.
    destruct (Nat.eqb k1 k) eqn:Q1, (Nat.eqb k2 k) eqn:Q2; intros E1 E2.
    - apply Nat.eqb_eq in Q1, Q2. congruence.
    - exfalso. apply LA in E1. assert (HH : cnt a notes + cnt a (notes_of es) = 0) by (apply H; exists k2; exact E2). lia.
    - exfalso. apply LA in E2. assert (HH : cnt a notes + cnt a (notes_of es) = 0) by (apply H; exists k1; exact E1). lia.
    - exact (S k1 k2 E1 E2). }
  assert (HE : held a (end_lasts isLast k notes l) -> cnt a (notes_of es) = 0).
  { intros Q. apply HL in Q as [[_ Q]|[_ [Q|(k' & _ & Q)]]]; [specialize (H Q); lia|apply LA in Q; lia|].
    assert (HH : cnt a notes + cnt a (notes_of es) = 0) by (apply H; exists k'; exact Q). lia. }
  destruct (IH (end_lasts isLast k notes l) O2 SL ltac:(lia) HE) as [IH1 IH2].
  set (P := cnt a (match notes with [] => [] | _ :: _ => match l k with None => [] | Some p => [p] end end)).
  assert (P1 : P <= 1 /\ (P = 1 -> l k = Some a)).
  { subst P. destruct notes as [|y notes]; [cbn; lia|]. destruct (l k) as [p|]; [|cbn; split; [lia|discriminate]]. rewrite cnt_one. destruct (Nat.eqb_spec p a) as [-> |]; [|split; [lia|discriminate]].
    split; [lia|]. intros _. reflexivity. }
  set (En := cnt a (map target (end_ops isLast notes))).
  assert (E1 : En <= 1 /\ (En = 1 -> isLast = true /\ last_note notes = Some a)).
  { subst En. unfold end_ops. destruct isLast; [|cbn; split; [lia|discriminate]]. destruct (last_note notes) as [x|]; [|cbn; split; [lia|discriminate]]. cbn [map target]. rewrite cnt_one. destruct (Nat.eqb_spec x a) as [-> |]; [|split; [lia|discriminate]].
    split; [lia|]. intros _. split; reflexivity. }
  destruct P1 as [P1 P2], E1 as [E1 E2].
  assert (PH : P = 1 -> cnt a notes + cnt a (notes_of es) = 0).
  { intros Q. apply H. exists k. apply P2. exact Q. }
  assert (EH : En = 1 -> cnt a notes = cnt a (removelast notes) + 1) by (intros Q; apply LA, E2, Q).
  assert (W : wanted a (end_lasts isLast k notes l) es -> P = 0 /\ cnt a (removelast notes) = 0 /\ En = 0).
  { intros (k' & K & Q). unfold end_lasts in Q. destruct isLast.
    - assert (k' <> k) by (intros ->; exact (O1 eq_refl K)).
      assert (HH : cnt a notes + cnt a (notes_of es) = 0) by (apply H; exists k'; exact Q).
      assert (P <> 1) by (intros T; apply P2 in T; apply H0; exact (S k' k Q T)).
      destruct (Nat.eq_dec En 1) as [T|T]; [specialize (EH T)|]; lia.
    - assert (En <> 1) by (intros T; apply E2 in T as [T _]; discriminate).
      unfold set_last in Q. destruct (Nat.eqb k' k) eqn:B.
      + specialize (LA Q). destruct (Nat.eq_dec P 1) as [T|T]; [specialize (PH T)|]; lia.
      + apply Nat.eqb_neq in B.
        assert (HH : cnt a notes + cnt a (notes_of es) = 0) by (apply H; exists k'; exact Q).
        assert (P <> 1) by (intros T; apply P2 in T; apply B; exact (S k' k Q T)). lia. }
  assert (D : cnt a notes >= cnt a (removelast notes)) by lia.
  assert (Sum : P + cnt a (removelast notes) + En <= 1).
  { destruct (Nat.eq_dec P 1) as [T|T]; [specialize (PH T)|]; (destruct (Nat.eq_dec En 1) as [T'|T']; [specialize (EH T')|]); lia. }
  assert (Cases : P + cnt a (removelast notes) + En = 1 -> cnt a (notes_of es) = 0).
  { intros T. destruct (Nat.eq_dec P 1) as [T1|T1]; [specialize (PH T1); lia|]. destruct (Nat.eq_dec En 1) as [T2|T2]; [specialize (EH T2); lia|]. lia. }
  split.
  - destruct (Nat.eq_dec (P + cnt a (removelast notes) + En) 1) as [T|T]; [|lia].
    rewrite IH2; [lia| |apply Cases; exact T]. intros Q. apply W in Q. lia.
  - intros NW Z. assert (P <> 1).
    { intros T. apply NW. exists k. split; [left; reflexivity|apply P2; exact T]. }
    destruct (Nat.eq_dec En 1) as [T|T]; [specialize (EH T); lia|].
    rewrite IH2; [lia| |lia]. intros (k' & K & Q). unfold end_lasts in Q. destruct isLast.
    + apply NW. exists k'. split; [right; exact K|exact Q].
    + unfold set_last in Q. destruct (Nat.eqb k' k); [apply LA in Q; lia|]. apply NW. exists k'. split; [right; exact K|exact Q].
Qed.

(** Notes of the parts *)
Definition part_notes (p : part) : list nat := concat (map (fun m => concat (map snd m)) p).
Lemma entries_notes p : notes_of (entries p) = part_notes p.
Proof.
  induction p as [|m p IH]; [reflexivity|]. unfold notes_of in *. cbn [entries part_notes map concat].
  rewrite map_app, concat_app, map_map. cbn [snd]. f_equal. exact IH.
Qed.
Definition voices_differ (p : part) : Prop := Forall (fun m : measure => NoDup (map fst m)) p.
Lemma entries_ends p : voices_differ p -> ends_once (entries p).
Proof.
  induction 1 as [|m p N F IH]; [exact I|]. cbn [entries].
  assert (Q : forall b es, ends_once es -> (b = true -> es = []) -> ends_once (map (fun v : key * list nat => (b, v)) m ++ es)).
  { clear IH. induction m as [|[k notes] m IHm]; intros b es He Hb; [exact He|]. cbn [map] in N. apply NoDup_cons_iff in N as [N1 N2].
    cbn [map app ends_once]. split; [|apply IHm; assumption]. intros B. rewrite (Hb B), app_nil_r. intros I. apply N1. unfold keys in I.
    rewrite map_map in I. exact I. }
  apply Q; [exact IH|]. destruct p; [reflexivity|discriminate].
Qed.
Lemma part_targets p a : voices_differ p -> cnt a (part_notes p) <= 1 ->
  cnt a (map target (part_ops p)) <= 1 /\ (cnt a (part_notes p) = 0 -> cnt a (map target (part_ops p)) = 0).
Proof.
  intros V C. unfold part_ops. destruct (targets_once_aux a (entries p) (fun _ => None)) as [H1 H2].
  - apply entries_ends, V.
  - intros k k' E. discriminate.
  - rewrite entries_notes. exact C.
  - intros (k & E). discriminate.
  - split; [exact H1|]. intros Z. apply H2; [|rewrite entries_notes; exact Z]. intros (k & _ & E). discriminate.
Qed.
Definition score_notes (ps : list part) : list nat := concat (map part_notes ps).
Lemma score_targets ps : Forall voices_differ ps -> NoDup (score_notes ps) -> NoDup (map target (concat (map part_ops ps))).
Proof.
  intros F N. rewrite (NoDup_count_occ Nat.eq_dec) in N |- *. intros a. specialize (N a).
  change (cnt a (score_notes ps) <= 1) in N. change (cnt a (map target (concat (map part_ops ps))) <= 1).
  enough (G : cnt a (map target (concat (map part_ops ps))) <= cnt a (score_notes ps)) by lia.
  induction F as [|p ps V F IH]; [cbn; lia|]. unfold score_notes in *. cbn [map concat] in *. rewrite map_app, !cnt_app in *.
  destruct (part_targets p a V ltac:(lia)) as [H1 H2]. specialize (IH ltac:(lia)).
  destruct (cnt a (part_notes p)) as [|c]; [rewrite H2; lia|lia].
Qed.

(** ** Which notes are compared *)
Definition line (k : key) (p : part) : list nat :=
  concat (map snd (filter (fun v : key * list nat => Nat.eqb (fst v) k) (concat p))).
Definition eline (k : key) (es : list entry) : list nat :=
  concat (map snd (filter (fun v : key * list nat => Nat.eqb (fst v) k) (map snd es))).
Lemma entries_line k p : eline k (entries p) = line k p.
Proof.
  unfold eline, line. do 3 f_equal. induction p as [|m p IH]; [reflexivity|]. cbn [entries concat]. rewrite map_app, IH. f_equal.
  rewrite map_map. apply map_id.
Qed.
Definition olist (o : option nat) : list nat := match o with None => [] | Some x => [x] end.
Lemma voice_pairs a b notes : forall prev, In (OPair a b) (voice_ops prev notes) <-> exists u v, olist prev ++ notes = u ++ a :: b :: v.
Proof.
  induction notes as [|x notes IH]; intros prev.
  - cbn. split; [tauto|]. intros (u & v & E). destruct prev; cbn in E; (destruct u as [|? [|? u]]; discriminate).
  - cbn [voice_ops]. rewrite in_app_iff, IH. split.
    + intros [H|(u & v & E)].
      * destruct prev as [p|]; [|destruct H]. destruct H as [H|[]]. injection H as -> ->. exists [], notes. reflexivity.
      * exists (olist prev ++ u), v. rewrite <- app_assoc, <- E. reflexivity.
    + intros (u & v & E). destruct prev as [p|]; cbn in E.
      * destruct u as [|y u]; cbn in E; injection E as E1 E2; [left; left; congruence|].
        right. exists u, v. exact E2.
      * right. exists u, v. exact E.
Qed.
Lemma voice_no_end x notes : forall prev, ~ In (OEnd x) (voice_ops prev notes).
Proof.
  induction notes as [|y notes IH]; intros prev; [exact (fun H => H)|]. cbn [voice_ops]. rewrite in_app_iff. intros [H|H]; [|exact (IH _ H)].
  destruct prev; [destruct H as [H|[]]; discriminate|destruct H].
Qed.
Lemma eline_absent k es : ~ In k (keys es) -> eline k es = [].
Proof.
  unfold eline, keys. induction es as [|[i [k' n]] es IH]; intros H; [reflexivity|]. cbn in *.
  destruct (Nat.eqb k' k) eqn:E; [apply Nat.eqb_eq in E; tauto|]. apply IH. tauto.
Qed.
Lemma eline_cons k i k' notes es : eline k ((i, (k', notes)) :: es) = (if Nat.eqb k' k then notes else []) ++ eline k es.
Proof. unfold eline. cbn [map snd filter fst]. destruct (Nat.eqb k' k); reflexivity. Qed.
(** the compared notes are one after the other in a voice *)
Lemma entry_pairs a b es : forall l, ends_once es -> In (OPair a b) (entry_ops l es) -> exists k u v, olist (l k) ++ eline k es = u ++ a :: b :: v.
Proof.
  induction es as [|[i [k notes]] es IH]; intros l OO H; [destruct H|]. destruct OO as [O1 O2]. cbn [entry_ops] in H. rewrite !in_app_iff in H. destruct H as [H|[H|H]].
  - apply voice_pairs in H as (u & v & E). exists k, u, (v ++ eline k es). rewrite eline_cons, Nat.eqb_refl, app_assoc, E, <- app_assoc. reflexivity.
  - unfold end_ops in H. destruct i; [|destruct H]. destruct (last_note notes); [destruct H as [H|[]]; discriminate|destruct H].
  - apply IH in H as (k' & u & v & E); [|exact O2]. unfold end_lasts in E. destruct i.
    + destruct (Nat.eqb k k') eqn:Q.
      * apply Nat.eqb_eq in Q. subst k'. rewrite (eline_absent k es (O1 eq_refl)), app_nil_r in E.
        destruct (l k); destruct u as [|? [|? u]]; discriminate.
      * exists k', u, v. rewrite eline_cons, Q. exact E.
    + unfold set_last in E. rewrite (Nat.eqb_sym k' k) in E. destruct (Nat.eqb k k') eqn:Q.
      * apply Nat.eqb_eq in Q. subst k'. pose proof (last_note_split notes) as L. destruct (last_note notes) as [x|].
        -- exists k, (olist (l k) ++ removelast notes ++ u), v. rewrite eline_cons, Nat.eqb_refl, L at 1. cbn [olist] in E.
           rewrite <- !app_assoc. rewrite <- E. reflexivity.
        -- subst notes. exists k, (olist (l k) ++ u), v. rewrite eline_cons, Nat.eqb_refl. cbn [app olist] in *. rewrite E, <- app_assoc. reflexivity.
      * exists k', u, v. rewrite eline_cons, Q. exact E.
Qed.
Lemma app_pair_split {A} (xs ys u v : list A) a b : xs ++ ys = u ++ a :: b :: v ->
  (exists v', xs = u ++ a :: b :: v' /\ v = v' ++ ys) \/ (exists u', ys = u' ++ a :: b :: v /\ u = xs ++ u') \/ (xs = u ++ [a] /\ ys = b :: v).
Proof.
  revert u. induction xs as [|x xs IH]; intros u E.
  - right. left. exists u. split; [exact E|reflexivity].
  - destruct u as [|y u]; cbn in E; injection E as -> E.
    + destruct xs as [|y xs]; [right; right; split; [reflexivity|exact E]|]. cbn in E. injection E as -> E. left. exists xs. split; [reflexivity|congruence].
    + apply IH in E as [(v' & -> & ->)|[(u' & -> & ->)|[-> ->]]].
      * left. exists v'. split; reflexivity.
      * right. left. exists u'. split; reflexivity.
      * right. right. split; reflexivity.
Qed.
(** and all such notes are compared, where no voice is without notes *)
Lemma pairs_entry a b k es : Forall (fun e : entry => snd (snd e) <> []) es -> ends_once es -> forall l u v,
  olist (l k) ++ eline k es = u ++ a :: b :: v -> In (OPair a b) (entry_ops l es).
Proof.
  induction 1 as [|[i [k' notes]] es N F IH]; intros O l u v E.
  - cbn in E. rewrite app_nil_r in E. destruct (l k); destruct u as [|? [|? u]]; discriminate.
  - cbn [snd] in N. destruct O as [O1 O2]. cbn [entry_ops]. rewrite !in_app_iff. rewrite eline_cons in E. destruct (Nat.eqb k' k) eqn:Q.
    + apply Nat.eqb_eq in Q. subst k'. rewrite app_assoc in E.
      apply app_pair_split in E as [(v' & E & _)|[(u' & E & _)|[E1 E2]]].
      * left. apply voice_pairs. exists u, v'. exact E.
      * right. right. destruct i; [rewrite (eline_absent k es (O1 eq_refl)) in E; destruct u'; discriminate|].
        apply (IH O2 _ (olist (last_note notes) ++ u') v). unfold end_lasts, set_last. rewrite Nat.eqb_refl, E, <- app_assoc. reflexivity.
      * right. right. destruct i; [rewrite (eline_absent k es (O1 eq_refl)) in E2; discriminate|].
        apply (IH O2 _ [] v). unfold end_lasts, set_last. rewrite Nat.eqb_refl, E2. cbn [app].
        pose proof (last_note_split notes) as L. destruct (last_note notes) as [x|]; [|congruence].
        rewrite L, app_assoc in E1. apply app_inj_tail in E1 as [_ ->]. reflexivity.
    + right. right. apply (IH O2 _ u v). unfold end_lasts. destruct i; [exact E|]. unfold set_last. rewrite Nat.eqb_sym, Q. exact E.
Qed.
Lemma entry_end x es : forall l, In (OEnd x) (entry_ops l es) <-> exists k notes, In (true, (k, notes ++ [x])) es.
Proof.
  induction es as [|[i [k notes]] es IH]; intros l; [cbn; split; [tauto|intros (? & ? & [])]|].
  cbn [entry_ops]. rewrite !in_app_iff, IH. pose proof (last_note_split notes) as L. split.
  - intros [H|[H|(k' & n & H)]]; [destruct (voice_no_end _ _ _ H)| |exists k', n; right; exact H].
    unfold end_ops in H. destruct i; [|destruct H]. destruct (last_note notes) as [y|]; [|destruct H]. destruct H as [H|[]]. injection H as ->.
    exists k, (removelast notes). left. rewrite <- L. reflexivity.
  - intros (k' & n & [H|H]); [|right; right; exists k', n; exact H]. injection H as -> -> ->. right. left. cbn [end_ops].
    destruct (last_note (n ++ [x])) as [y|]; [|destruct n; discriminate]. rewrite removelast_last in L. apply app_inj_tail in L as [_ ->]. left. reflexivity.
Qed.
Lemma entries_last v p : In (true, v) (entries p) <-> exists p' m, p = p' ++ [m] /\ In v m.
Proof.
  induction p as [|m p IH]; [cbn; split; [tauto|]; intros (p' & m & E & _); destruct p'; discriminate|].
  cbn [entries]. rewrite in_app_iff, IH. split.
  - intros [H|(p' & m' & -> & H)].
    + apply in_map_iff in H as (v' & E & H). injection E as E ->. destruct p; [|discriminate]. exists [], m. split; [reflexivity|exact H].
    + exists (m :: p'), m'. split; [reflexivity|exact H].
  - intros (p' & m' & E & H). destruct p' as [|y p'].
    + injection E as -> ->. left. apply in_map_iff. exists v. split; [reflexivity|exact H].
    + injection E as -> ->. right. exists p', m'. split; [reflexivity|exact H].
Qed.
Lemma entries_nonempty p : Forall (Forall (fun v : key * list nat => snd v <> [])) p -> Forall (fun e : entry => snd (snd e) <> []) (entries p).
Proof.
  induction 1 as [|m p H F IH]; [constructor|]. cbn [entries]. apply Forall_app. split; [|exact IH].
  apply Forall_forall. intros [i v] I. apply in_map_iff in I as (v' & E & I). injection E as _ ->. rewrite Forall_forall in H. exact (H v I).
Qed.

(** ** The parts of a score *)
Lemma score_op ps o : In o (concat (map part_ops ps)) <-> exists p, In p ps /\ In o (part_ops p).
Proof.
  rewrite in_concat. split.
  - intros (os & H & I). apply in_map_iff in H as (p & <- & H). exists p. split; assumption.
  - intros (p & H & I). exists (part_ops p). split; [apply in_map; exact H|exact I].
Qed.
Lemma part_pair p a b k u v : voices_differ p -> Forall (Forall (fun v : key * list nat => snd v <> [])) p ->
  line k p = u ++ a :: b :: v -> In (OPair a b) (part_ops p).
Proof.
  intros V N E. unfold part_ops. apply (pairs_entry a b k (entries p)) with (u := u) (v := v); [apply entries_nonempty, N|apply entries_ends, V|].
  rewrite entries_line. exact E.
Qed.
Lemma pair_part p a b : voices_differ p -> In (OPair a b) (part_ops p) -> exists k u v, line k p = u ++ a :: b :: v.
Proof.
  intros V H. apply entry_pairs in H as (k & u & v & E); [|apply entries_ends, V]. rewrite entries_line in E. exists k, u, v. exact E.
Qed.
Lemma part_end p x : In (OEnd x) (part_ops p) <-> exists p' m k notes, p = p' ++ [m] /\ In (k, notes ++ [x]) m.
Proof.
  unfold part_ops. rewrite entry_end. split.
  - intros (k & n & H). apply entries_last in H as (p' & m & E & H). exists p', m, k, n. split; assumption.
  - intros (p' & m & k & n & E & H). exists k, n. apply entries_last. exists p', m. split; assumption.
Qed.
