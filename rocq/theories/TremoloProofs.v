(** Lemmas about tremolo expansion. *)
From Coq Require Import Lia.
From Verif Require Import PyStr PyStrProofs RecipModel RecipProofs LayoutModel SignifierModel SignifierProofs TremoloModel.
From Coq Require Import QArith Lqa.
From Coq Require Qcanon.
Local Close Scope Q_scope.

Lemma qlt_iff a b : qlt a b = true <-> (a < b)%Q.
Proof. unfold qlt. rewrite Qlt_alt. destruct (Qcompare a b); split; congruence. Qed.
Lemma qlt_false a b : qlt a b = false <-> (b <= a)%Q.
Proof. rewrite <- not_true_iff_false, qlt_iff. split; [apply Qnot_lt_le|apply Qle_not_lt]. Qed.

(** ** Columns *)

(** From time [t] to time [e]: the data lines follow each other without gap. *)
Fixpoint chain (t : Q) (l : list cell) (e : Q) : Prop :=
  match l with
  | [] => (t == e)%Q
  | c :: r => if c_data c then (c_time c == t)%Q /\ (0 <= c_dur c)%Q /\ chain (t + c_dur c)%Q r e else chain t r e
  end.

Lemma chain_eq l : forall t t' e, (t == t')%Q -> chain t l e -> chain t' l e.
Proof.
  induction l as [|c l IH]; intros t t' e E H; cbn in *; [lra|]. destruct (c_data c).
  - destruct H as (A & B & C). split; [lra|]. split; [exact B|]. apply (IH (t + c_dur c)%Q); [lra|exact C].
  - exact (IH t t' e E H).
Qed.
Lemma chain_le l : forall t e, chain t l e -> (t <= e)%Q.
Proof.
  induction l as [|c l IH]; intros t e H; cbn in H; [lra|]. destruct (c_data c); [|exact (IH _ _ H)].
  destruct H as (_ & B & C). apply IH in C. lra.
Qed.
Lemma chain_times l : forall t e, chain t l e -> forall c, In c l -> c_data c = true -> (t <= c_time c)%Q.
Proof.
  induction l as [|d l IH]; intros t e H c I D; [destruct I|]. cbn in H. destruct I as [->|I].
  - rewrite D in H. destruct H. lra.
  - destruct (c_data d); [|exact (IH _ _ H c I D)]. destruct H as (_ & B & C). pose proof (IH _ _ C c I D). lra.
Qed.

(** A sounding line: data, not grace notes. *)
Definition sounding (c : cell) : Prop := c_data c = true /\ ~ (c_dur c == 0)%Q.

(** [l2] is [l1] with null lines added; only line durations differ. *)
Definition same_cell (a b : cell) : Prop := c_data a = c_data b /\ c_time a = c_time b /\ c_text a = c_text b /\ (sounding a -> sounding b).
Definition null_cell (c : cell) : Prop := c_data c = true /\ c_text c = S_ ".".
Inductive with_nulls : list cell -> list cell -> Prop :=
| wn_nil : with_nulls [] []
| wn_same : forall a b l1 l2, same_cell a b -> with_nulls l1 l2 -> with_nulls (a :: l1) (b :: l2)
| wn_null : forall c l1 l2, null_cell c -> with_nulls l1 l2 -> with_nulls l1 (c :: l2).

Lemma same_cell_refl a : same_cell a a.
Proof. unfold same_cell. auto. Qed.
Lemma same_cell_trans a b c : same_cell a b -> same_cell b c -> same_cell a c.
Proof. unfold same_cell. intros (A & B & C & D) (E & F & G & H). split; [congruence|]. split; [congruence|]. split; [congruence|]. intros X. apply H, D, X. Qed.
Lemma wn_refl l : with_nulls l l.
Proof. induction l; constructor; [apply same_cell_refl|assumption]. Qed.
Lemma wn_trans l2 l3 : with_nulls l2 l3 -> forall l1, with_nulls l1 l2 -> with_nulls l1 l3.
Proof.
  induction 1 as [|b c l2 l3 S W IH|c l2 l3 N W IH]; intros l1 H.
  - exact H.
  - inversion H as [|a b' l1' l2' S' W' E1 E2|b' l1' l2' N' W' E1 E2]; subst.
    + apply wn_same; [eapply same_cell_trans; eassumption|apply IH; exact W'].
    + apply wn_null; [|apply IH; exact W']. destruct S as (A & _ & B & _). destruct N' as (C & D). split; congruence.
  - apply wn_null; [exact N|apply IH; exact H].
Qed.
Lemma wn_app a b c d : with_nulls a b -> with_nulls c d -> with_nulls (a ++ c) (b ++ d).
Proof. induction 1; intros W; cbn; [exact W|constructor; auto..]. Qed.

(** ** Inserting one null line *)

Lemma insert_app ts a c r : insert_after ts (length a) (a ++ c :: r)
  = a ++ mkCell (c_data c) (c_time c) (ts - c_time c)%Q (c_text c)
      :: mkCell true ts (c_dur c - (ts - c_time c))%Q (S_ ".") :: r.
Proof. induction a as [|x a IH]; [reflexivity|]. cbn. rewrite IH. reflexivity. Qed.

Lemma present_sounding ts l : forall t e, chain t l e -> (ts < e)%Q -> (t == ts)%Q -> exists c, In c l /\ sounding c /\ (c_time c == ts)%Q.
Proof.
  induction l as [|c l IH]; intros t e H L E; cbn in H; [lra|].
  destruct (c_data c) eqn:D.
  - destruct H as (A & B & C). destruct (Qeq_dec (c_dur c) 0) as [Z|Z].
    + destruct (IH (t + c_dur c)%Q e C L) as (x & I & S & X); [lra|]. exists x. split; [right; exact I|auto].
    + exists c. split; [left; reflexivity|]. split; [split; assumption|]. lra.
  - destruct (IH t e H L E) as (x & I & S & X). exists x. split; [right; exact I|auto].
Qed.

(** The line [b] covers [ts]. *)
Definition covers (ts : Q) (c : cell) : Prop := c_data c = true /\ (c_time c < ts)%Q /\ (ts < c_time c + c_dur c)%Q.

Lemma place_found ts l : forall t e i before, chain t l e -> (ts < e)%Q -> (t <= ts)%Q ->
  null_place ts i before l = Present /\ (exists c, In c l /\ sounding c /\ (c_time c == ts)%Q)
  \/ exists a c r, l = a ++ c :: r /\ covers ts c /\ null_place ts i before l = After (i + length a).
Proof.
  induction l as [|c l IH]; intros t e i before H L E; cbn [chain] in H; [lra|]. cbn [null_place].
  destruct (c_data c) eqn:D; cbn [negb].
  - destruct H as (A & B & C). destruct (Qeq_bool (c_time c) ts) eqn:Q.
    + left. apply Qeq_bool_iff in Q. split; [reflexivity|].
      apply (present_sounding ts (c :: l) t e); [cbn; rewrite D; auto|exact L|lra].
    + assert (NE : ~ (c_time c == ts)%Q) by (intros X; apply Qeq_bool_iff in X; congruence).
      assert (LT : (c_time c < ts)%Q) by (apply Qnot_le_lt; intros X; apply NE; lra).
      assert (QL : qlt ts (c_time c) = false) by (apply qlt_false; lra). rewrite QL.
      destruct (Qlt_le_dec ts (t + c_dur c)%Q) as [COV|PAST].
      * right. exists [], c, l. split; [reflexivity|]. split; [split; [exact D|split; lra]|].
        rewrite Nat.add_0_r.
        (* nothing at [ts] or before it follows *)
        clear IH. assert (G : forall l t2 j, chain t2 l e -> (ts < t2)%Q -> null_place ts j (Some i) l = After i).
        { clear - L. induction l as [|d l IH]; intros t2 j H LT; cbn [chain] in H; cbn [null_place]; [reflexivity|].
          destruct (c_data d); cbn [negb]; [|exact (IH _ _ H LT)].
          destruct H as (A & B & C). destruct (Qeq_bool (c_time d) ts) eqn:Q; [apply Qeq_bool_iff in Q; lra|].
          assert (X : qlt ts (c_time d) = true) by (apply qlt_iff; lra). rewrite X. reflexivity. }
        apply (G l (t + c_dur c)%Q); assumption.
      * destruct (IH (t + c_dur c)%Q e (S i) (Some i) C L PAST) as [(P & x & I & X)|(a & x & r & -> & CO & P)].
        -- left. split; [exact P|]. exists x. split; [right; exact I|exact X].
        -- right. exists (c :: a), x, r. split; [reflexivity|]. split; [exact CO|]. rewrite P. cbn [length]. f_equal. lia.
  - destruct (IH t e (S i) before H L E) as [(P & x & I & X)|(a & x & r & -> & CO & P)].
    + left. split; [exact P|]. exists x. split; [right; exact I|exact X].
    + right. exists (c :: a), x, r. split; [reflexivity|]. split; [exact CO|]. rewrite P. cbn [length]. f_equal. lia.
Qed.

Lemma chain_split ts a c r : forall t e, chain t (a ++ c :: r) e -> covers ts c ->
  chain t (a ++ mkCell (c_data c) (c_time c) (ts - c_time c)%Q (c_text c)
             :: mkCell true ts (c_dur c - (ts - c_time c))%Q (S_ ".") :: r) e.
Proof.
  induction a as [|x a IH]; intros t e H (D & L1 & L2); cbn [app chain] in *.
  - cbn [c_data c_time c_dur]. rewrite D in *. destruct H as (A & B & C). split; [exact A|]. split; [lra|].
    split; [lra|]. split; [lra|]. eapply chain_eq; [|exact C]. lra.
  - destruct (c_data x).
    + destruct H as (A & B & C). split; [exact A|]. split; [exact B|]. apply IH; [exact C|split; auto].
    + apply IH; [exact H|split; auto].
Qed.

(** Making sure that something sounds at [ts]. *)
Lemma insert_spec ts l t e : chain t l e -> (t <= ts)%Q -> (ts < e)%Q ->
  chain t (insertNullDataLine ts l) e /\ with_nulls l (insertNullDataLine ts l)
  /\ exists c, In c (insertNullDataLine ts l) /\ sounding c /\ (c_time c == ts)%Q.
Proof.
  intros H L1 L2. unfold insertNullDataLine. destruct (place_found ts l t e 0 None H L2 L1) as [(P & X)|(a & c & r & E & CO & P)]; rewrite P.
  - split; [exact H|]. split; [apply wn_refl|exact X].
  - cbn [Nat.add]. rewrite E, insert_app. destruct CO as (D & C1 & C2). split; [|split].
    + apply chain_split; [rewrite <- E; exact H|split; auto].
    + apply wn_app; [apply wn_refl|]. constructor.
      * split; [reflexivity|]. split; [reflexivity|]. split; [reflexivity|]. intros _. split; [exact D|cbn; lra].
      * constructor; [split; reflexivity|apply wn_refl].
    + eexists. split; [apply in_or_app; right; right; left; reflexivity|]. split; [split; [reflexivity|]|reflexivity]. cbn. lra.
Qed.

(** The cells before a line that starts before [ts] stay where they are. *)
Lemma insert_prefix ts a c r t e : chain t (a ++ c :: r) e -> (t <= ts)%Q -> (ts < e)%Q -> sounding c -> (c_time c < ts)%Q ->
  exists c' r', insertNullDataLine ts (a ++ c :: r) = a ++ c' :: r' /\ same_cell c c'.
Proof.
  intros H L1 L2 S LT. unfold insertNullDataLine.
  destruct (place_found ts (a ++ c :: r) t e 0 None H L2 L1) as [(P & X)|(a2 & c2 & r2 & E & CO & P)]; rewrite P.
  - exists c, r. split; [reflexivity|apply same_cell_refl].
  - cbn [Nat.add]. rewrite E, insert_app.
    (* the covering line is [c] or stands behind it *)
    assert (G : forall a a2 t, chain t (a ++ c :: r) e -> a ++ c :: r = a2 ++ c2 :: r2 ->
       (a2 = a /\ c2 = c /\ r2 = r) \/ exists m, a2 = a ++ c :: m).
    { clear - S LT CO. induction a as [|x a IH]; intros a2 t H E.
      - destruct a2 as [|y a2]; [injection E as -> ->; auto|]. injection E as <- E. right. exists a2. reflexivity.
      - destruct a2 as [|y a2].
        + injection E as E1 E2. subst c2 r2. exfalso. destruct CO as (D & C1 & C2). cbn in H. rewrite D in H.
          destruct H as (A & B & C). pose proof (chain_times _ _ _ C c) as T.
          assert (I : In c (a ++ c :: r)) by (apply in_or_app; right; left; reflexivity).
          specialize (T I (proj1 S)). lra.
        + injection E as <- E. cbn in H. assert (X : exists t', chain t' (a ++ c :: r) e) by (destruct (c_data x); [destruct H as (_ & _ & H)|]; eauto).
          destruct X as (t' & X). destruct (IH a2 t' X E) as [(-> & -> & ->)|(m & ->)]; [left; auto|right; exists m; reflexivity]. }
    destruct (G a a2 t H E) as [(-> & -> & ->)|(m & ->)].
    + eexists. eexists. split; [reflexivity|]. destruct CO as (D & C1 & C2). split; [reflexivity|]. split; [reflexivity|]. split; [reflexivity|]. intros _. split; [exact D|cbn; lra].
    + exists c, (m ++ mkCell (c_data c2) (c_time c2) (ts - c_time c2)%Q (c_text c2) :: mkCell true ts (c_dur c2 - (ts - c_time c2))%Q (S_ ".") :: r2).
      split; [rewrite <- app_assoc; reflexivity|apply same_cell_refl].
Qed.

(** Something that sounds at a time stays. *)
Lemma wn_in l1 l2 : with_nulls l1 l2 -> forall c, In c l1 -> sounding c -> exists c', In c' l2 /\ sounding c' /\ c_time c' = c_time c.
Proof.
  induction 1 as [|a b l1 l2 S W IH|x l1 l2 N W IH]; intros c I SC; [destruct I| |].
  - destruct I as [->|I].
    + exists b. destruct S as (_ & T & _ & X). split; [left; reflexivity|]. split; [exact (X SC)|congruence].
    + destruct (IH c I SC) as (c' & I' & Z). exists c'. split; [right; exact I'|exact Z].
  - destruct (IH c I SC) as (c' & I' & Z). exists c'. split; [right; exact I'|exact Z].
Qed.

(** ** All null lines of a note *)

Definition at_step (start inc : Q) (k : nat) : Q := (start + inc * inject_Z (Z.of_nat k))%Q.

Lemma inject_S k : (inject_Z (Z.of_nat (S k)) == inject_Z (Z.of_nat k) + 1)%Q.
Proof. unfold inject_Z, Qeq, Qplus. cbn [Qnum Qden]. lia. Qed.
Lemma inject_mono a b : a <= b -> (inject_Z (Z.of_nat a) <= inject_Z (Z.of_nat b))%Q.
Proof. intros H. rewrite <- Zle_Qle. lia. Qed.
Lemma inject_pos a : 0 < a -> (1 <= inject_Z (Z.of_nat a))%Q.
Proof. intros H. change 1%Q with (inject_Z 1). rewrite <- Zle_Qle. lia. Qed.
Lemma step_lt start inc a b : (0 < inc)%Q -> a < b -> (at_step start inc a < at_step start inc b)%Q.
Proof.
  intros P L. unfold at_step. assert (X : (inject_Z (Z.of_nat a) + 1 <= inject_Z (Z.of_nat b))%Q).
  { rewrite <- inject_S. apply inject_mono. lia. }
  assert (Y : (inc * (inject_Z (Z.of_nat a) + 1) <= inc * inject_Z (Z.of_nat b))%Q).
  { rewrite !(Qmult_comm inc). apply Qmult_le_compat_r; [exact X|lra]. }
  lra.
Qed.
Lemma step_next start inc k : (at_step start inc k + inc == at_step start inc (S k))%Q.
Proof. unfold at_step. rewrite inject_S. lra. Qed.
Lemma step_0 start inc : (at_step start inc 0 == start)%Q.
Proof. unfold at_step. change (inject_Z (Z.of_nat 0)) with 0%Q. lra. Qed.
Lemma step_inj start inc a b : (0 < inc)%Q -> (at_step start inc a == at_step start inc b)%Q -> a = b.
Proof.
  intros P E. destruct (Nat.lt_trichotomy a b) as [L|[L|L]]; [|exact L|]; pose proof (step_lt start inc _ _ P L); lra.
Qed.

Lemma insert_all start inc t e a : forall ks l c r, l = a ++ c :: r -> chain t l e -> (t <= start)%Q -> (0 < inc)%Q ->
  sounding c -> (c_time c == start)%Q -> Forall (fun k => 0 < k /\ (at_step start inc k < e)%Q) ks ->
  exists c' r', fold_left (fun l k => insertNullDataLine (at_step start inc k) l) ks l = a ++ c' :: r'
    /\ same_cell c c' /\ chain t (a ++ c' :: r') e /\ with_nulls l (a ++ c' :: r')
    /\ forall k, In k ks -> exists x, In x (a ++ c' :: r') /\ sounding x /\ (c_time x == at_step start inc k)%Q.
Proof.
  induction ks as [|k ks IH]; intros l c r E H LT P S TC F.
  - subst l. exists c, r. split; [reflexivity|]. split; [apply same_cell_refl|]. split; [exact H|]. split; [apply wn_refl|intros ? []].
  - inversion F as [|? ? (K & KE) F']; subst. cbn [fold_left].
    assert (ST : (start < at_step start inc k)%Q).
    { pose proof (step_lt start inc 0 k P K) as X. pose proof (step_0 start inc). lra. }
    destruct (insert_spec (at_step start inc k) (a ++ c :: r) t e H) as (C1 & W1 & x & I1 & S1 & T1); [lra|exact KE|].
    destruct (insert_prefix (at_step start inc k) a c r t e H) as (c1 & r1 & E1 & SC); [lra|exact KE|exact S|lra|].
    rewrite E1 in *. destruct SC as (SD & SE & SF & SG).
    destruct (IH (a ++ c1 :: r1) c1 r1 eq_refl C1 LT P (SG S)) as (c' & r' & E2 & SC2 & C2 & W2 & G); [rewrite <- SE; exact TC|exact F'|].
    exists c', r'. split; [exact E2|]. split; [eapply same_cell_trans; [split; [exact SD|split; [exact SE|split; [exact SF|exact SG]]]|exact SC2]|].
    split; [exact C2|]. split; [eapply wn_trans; [exact W2|exact W1]|].
    intros j [<-|J]; [|exact (G j J)]. destruct (wn_in _ _ W2 x I1 S1) as (y & I2 & S2 & T2). exists y. split; [exact I2|]. split; [exact S2|].
    rewrite T2. exact T1.
Qed.

(** ** Writing the notes *)

(** Cell [c] is the place of note [k] of the tremolo. *)
Definition place_of (start inc : Q) (k : nat) (c : cell) : Prop := sounding c /\ (c_time c == at_step start inc k)%Q.
Definition written (start inc : Q) (n m : nat) (text : nat -> str) (c c' : cell) : Prop :=
  (exists k, m <= k < n /\ place_of start inc k c /\ c' = set_text (text (S k)) c)
  \/ (forall k, m <= k < n -> ~ place_of start inc k c) /\ c' = c.

Lemma written_refl start inc n m text c : (forall k, m <= k < n -> ~ place_of start inc k c) -> written start inc n m text c c.
Proof. right. auto. Qed.

Lemma fill_spec start inc n text : (0 < inc)%Q -> forall l t e m, chain t l e -> m < n ->
  (forall k, m <= k < n -> exists c, In c l /\ place_of start inc k c) ->
  forall ts, (ts == at_step start inc m)%Q -> Forall2 (written start inc n m text) l (fill n inc text ts m l).
Proof.
  intros P. induction l as [|c l IH]; intros t e m H MN EX ts TS.
  - destruct (EX m) as (c & [] & _). lia.
  - cbn [fill chain] in *. destruct (c_data c) eqn:D; cbn [negb].
    2:{ assert (NP : forall k, ~ place_of start inc k c) by (intros k ((X & _) & _); congruence).
        constructor; [apply written_refl; intros; apply NP|]. apply (IH t e m H MN); [|exact TS].
        intros k K. destruct (EX k K) as (x & [->|I] & PX); [destruct (NP k PX)|eauto]. }
    destruct H as (A & B & C). destruct (Qeq_bool (c_dur c) 0) eqn:Z.
    { apply Qeq_bool_iff in Z. assert (NP : forall k, ~ place_of start inc k c) by (intros k ((_ & X) & _); contradiction).
      constructor; [apply written_refl; intros; apply NP|]. apply (IH (t + c_dur c)%Q e m C MN); [|exact TS].
      intros k K. destruct (EX k K) as (x & [->|I] & PX); [destruct (NP k PX)|eauto]. }
    assert (DP : (0 < c_dur c)%Q) by (apply Qnot_le_lt; intros X; assert (Y : (c_dur c == 0)%Q) by lra; apply Qeq_bool_iff in Y; congruence).
    assert (SC : sounding c) by (split; [exact D|lra]).
    assert (MONO : forall k, m < k -> (at_step start inc m < at_step start inc k)%Q) by (intros; apply step_lt; assumption).
    destruct (qlt (c_time c) ts) eqn:Q1.
    { apply qlt_iff in Q1.
      assert (NP : forall k, m <= k < n -> ~ place_of start inc k c).
      { intros k K (_ & X). destruct (Nat.eq_dec k m) as [->|N]; [lra|]. specialize (MONO k). assert (L : m < k) by lia. specialize (MONO L). lra. }
      constructor; [apply written_refl; exact NP|]. apply (IH (t + c_dur c)%Q e m C MN); [|exact TS].
      intros k K. destruct (EX k K) as (x & [->|I] & PX); [destruct (NP k K PX)|eauto]. }
    apply qlt_false in Q1. destruct (qlt ts (c_time c)) eqn:Q2.
    { (* the place of note [m] would have to come later *)
      apply qlt_iff in Q2. exfalso. destruct (EX m) as (x & [->|I] & (SX & TX)); [lia|lra|].
      pose proof (chain_times _ _ _ C x I (proj1 SX)). lra. }
    apply qlt_false in Q2. assert (TC : (c_time c == at_step start inc m)%Q) by lra.
    assert (PC : place_of start inc m c) by (split; assumption).
    constructor; [left; exists m; split; [lia|]; split; [exact PC|reflexivity]|].
    assert (REST : forall k, S m <= k < n -> exists x, In x l /\ place_of start inc k x).
    { intros k K. destruct (EX k) as (x & [->|I] & PX); [lia| |eauto]. exfalso.
      destruct PC as (_ & X1). destruct PX as (_ & X2). assert (X3 : (at_step start inc m == at_step start inc k)%Q) by lra.
      apply step_inj in X3; [lia|exact P]. }
    assert (LIFT : forall o, Forall2 (written start inc n (S m) text) l o -> Forall2 (written start inc n m text) l o).
    { intros o F. assert (TL : forall x, In x l -> c_data x = true -> (t + c_dur c <= c_time x)%Q) by (intros; eapply chain_times; eassumption).
      clear - F TL A TC DP. induction F as [|x y l o W F IHF]; constructor.
      - destruct W as [(k & K & PX & E)|(N & E)].
        + left. exists k. split; [lia|auto].
        + right. split; [|exact E]. intros k K PX. destruct (Nat.eq_dec k m) as [->|NE]; [|apply (N k); [lia|exact PX]].
          destruct PX as ((D & _) & T). specialize (TL x (or_introl eq_refl) D). lra.
      - apply IHF. intros z I. apply TL. right. exact I. }
    apply LIFT. destruct (Nat.leb n (S m)) eqn:NM.
    + apply Nat.leb_le in NM. clear - NM. induction l; constructor; [apply written_refl; intros; lia|assumption].
    + apply Nat.leb_gt in NM. apply (IH (t + c_dur c)%Q e (S m) C NM REST). rewrite TS, step_next. reflexivity.
Qed.

(** ** Texts *)

(** Letters and signs that say nothing about the rhythm. *)
Definition neutral (c : ascii) : bool := negb (is_digit c) && negb (char_in c (S_ ".%q @")).
Definition neutral_str (s : str) : Prop := forallb neutral s = true.
(** Another note of a chord. *)
Definition other_notes (s : str) : Prop := (s = [] \/ exists r, s = " "%char :: r) /\ char_in "q"%char s = false.
(** The first note, or the note, has the rhythm [v]. *)
Definition shape (v : str) (s : str) : Prop :=
  exists a b rest, s = a ++ v ++ b ++ rest /\ neutral_str a /\ neutral_str b /\ other_notes rest.
(** A rhythm. *)
Definition is_rhythm (r : str) : Prop :=
  exists g1 p dots, r = g1 ++ p ++ dots /\ g1 <> [] /\ forallb is_digit g1 = true
    /\ (p = [] \/ exists g2, p = "%"%char :: g2 /\ g2 <> [] /\ forallb is_digit g2 = true)
    /\ forallb is_dot dots = true.

Lemma neutral_digit c : neutral c = true -> is_digit c = false.
Proof. unfold neutral. rewrite andb_true_iff, !negb_true_iff. tauto. Qed.
Lemma neutral_not c d : neutral c = true -> char_in d (S_ ".%q @") = true -> c <> d.
Proof.
  unfold neutral. rewrite andb_true_iff, !negb_true_iff. intros (_ & N) H ->. congruence.
Qed.
Lemma char_in_app' c a b : char_in c (a ++ b) = char_in c a || char_in c b.
Proof. unfold char_in. apply existsb_app. Qed.
Lemma char_in_cons' c d s : char_in c (d :: s) = Ascii.eqb c d || char_in c s.
Proof. reflexivity. Qed.
Lemma char_in_false c s : char_in c s = false <-> ~ In c s.
Proof.
  unfold char_in. rewrite <- not_true_iff_false, existsb_exists. split.
  - intros H I. apply H. exists c. split; [exact I|apply Ascii.eqb_refl].
  - intros H (x & I & E). apply Ascii.eqb_eq in E. subst x. contradiction.
Qed.
Lemma neutral_no d s : neutral_str s -> char_in d (S_ ".%q @") = true -> char_in d s = false.
Proof.
  intros N H. apply char_in_false. intros I. unfold neutral_str in N. rewrite forallb_forall in N.
  exact (neutral_not d d (N d I) H eq_refl).
Qed.
Lemma digits_no d s : forallb is_digit s = true -> is_digit d = false -> char_in d s = false.
Proof. intros F H. apply char_in_false. intros I. rewrite forallb_forall in F. specialize (F d I). congruence. Qed.
Lemma dots_no d s : forallb is_dot s = true -> is_dot d = false -> char_in d s = false.
Proof. intros F H. apply char_in_false. intros I. rewrite forallb_forall in F. specialize (F d I). congruence. Qed.
Lemma neutral_no_digit s : neutral_str s -> forall c, In c s -> is_digit c = false.
Proof. unfold neutral_str. rewrite forallb_forall. intros H c I. apply neutral_digit, H, I. Qed.

Definition no_digit_head (s : str) : Prop := match s with [] => True | c :: _ => is_digit c = false end.

Lemma search_pct_skip a s : (forall c, In c a -> is_digit c = false) -> search_pct (a ++ s) = search_pct s.
Proof.
  induction a as [|c a IH]; intros H; [reflexivity|]. cbn [app search_pct].
  assert (M : match_pct (c :: a ++ s) = None).
  { unfold match_pct. cbn [span]. rewrite (H c (or_introl eq_refl)). reflexivity. }
  rewrite M. apply IH. intros x I. apply H. right. exact I.
Qed.
Lemma search_digits_skip a s : (forall c, In c a -> is_digit c = false) -> search_digits (a ++ s) = search_digits s.
Proof.
  induction a as [|c a IH]; intros H; [reflexivity|]. cbn [app search_digits]. rewrite (H c (or_introl eq_refl)).
  apply IH. intros x I. apply H. right. exact I.
Qed.
Lemma search_digits_here g s : g <> [] -> forallb is_digit g = true -> no_digit_head s -> search_digits (g ++ s) = Some g.
Proof.
  intros N F H. destruct g as [|c g]; [contradiction|]. cbn [app search_digits]. assert (C : is_digit c = true) by (cbn in F; apply andb_true_iff in F; tauto).
  rewrite C, app_comm_cons, span_app_all; [reflexivity|exact F|exact H].
Qed.
Lemma search_pct_here g1 g2 s : g1 <> [] -> g2 <> [] -> forallb is_digit g1 = true -> forallb is_digit g2 = true ->
  no_digit_head s -> search_pct (g1 ++ "%"%char :: g2 ++ s) = Some (g1, g2).
Proof.
  intros N1 N2 F1 F2 H.
  assert (M : match_pct (g1 ++ "%"%char :: g2 ++ s) = Some (g1, g2)).
  { unfold match_pct. rewrite span_app_all by (exact F1 || reflexivity). destruct g1 as [|c g1]; [contradiction|].
    rewrite span_app_all by assumption. destruct g2; [contradiction|reflexivity]. }
  destruct g1 as [|c g1]; [contradiction|]. cbn [app search_pct] in *. rewrite M. reflexivity.
Qed.
Lemma first_sub f rest : char_in " "%char f = false -> (rest = [] \/ exists r, rest = " "%char :: r) -> first_subtoken (f ++ rest) = f.
Proof.
  intros N [->|(r & ->)].
  - rewrite app_nil_r. apply first_subtoken_nospace. exact N.
  - unfold first_subtoken. induction f as [|c f IH]; [reflexivity|].
    cbn in N. apply orb_false_iff in N. destruct N as (N1 & N2). specialize (IH N2). cbn [app split_char].
    assert (E : Ascii.eqb c " "%char = false) by (rewrite Ascii.eqb_sym; exact N1). rewrite E.
    destruct (split_char " " (f ++ " "%char :: r)) as [|p ps] eqn:SP; cbn in *; [subst f; reflexivity|]. rewrite IH. reflexivity.
Qed.
Lemma count_app c a b : count_char c (a ++ b) = count_char c a + count_char c b.
Proof. unfold count_char. rewrite filter_app, app_length. reflexivity. Qed.
Lemma count_none c s : char_in c s = false -> count_char c s = 0.
Proof.
  unfold count_char, char_in. induction s as [|d s IH]; [reflexivity|]. cbn. intros H. apply orb_false_iff in H. destruct H as (A & B).
  rewrite A. apply IH. exact B.
Qed.

(** A rhythm between neutral letters is read as it stands alone; digits may follow. *)
Lemma read_first a r b tail rest : neutral_str a -> is_rhythm r -> neutral_str b ->
  (tail = [] \/ exists t, tail = at_sign :: t) -> char_in "%"%char tail = false -> char_in "."%char tail = false ->
  char_in "q"%char tail = false -> char_in " "%char tail = false -> other_notes rest ->
  recip_eval (a ++ r ++ b ++ tail ++ rest) 4 = recip_eval r 4.
Proof.
  intros NA (g1 & p & dots & -> & N1 & F1 & HP & FD) NB HT T1 T2 T3 T4 (HR & RQ).
  assert (PQ : forall d, is_digit d = false -> d <> "%"%char -> char_in d p = false).
  { intros d D ND. destruct HP as [->|(g2 & -> & _ & F2)]; [reflexivity|]. rewrite char_in_cons', (digits_no d g2 F2 D), orb_false_r.
    destruct (Ascii.eqb d "%"%char) eqn:E; [apply Ascii.eqb_eq in E; contradiction|reflexivity]. }
  assert (Q1 : char_in "q"%char (g1 ++ p ++ dots) = false).
  { rewrite !char_in_app', (digits_no _ g1), PQ, (dots_no _ dots); [reflexivity|exact FD|reflexivity|reflexivity|discriminate|exact F1|reflexivity]. }
  assert (Q2 : char_in "q"%char (a ++ (g1 ++ p ++ dots) ++ b ++ tail ++ rest) = false).
  { rewrite (char_in_app' _ a), (char_in_app' _ (g1 ++ p ++ dots)), Q1, (char_in_app' _ b), (char_in_app' _ tail), (neutral_no _ a), (neutral_no _ b), T3, RQ; auto. }
  assert (S1 : char_in " "%char (g1 ++ p ++ dots) = false).
  { rewrite !char_in_app', (digits_no _ g1), PQ, (dots_no _ dots); [reflexivity|exact FD|reflexivity|reflexivity|discriminate|exact F1|reflexivity]. }
  assert (S2 : first_subtoken (a ++ (g1 ++ p ++ dots) ++ b ++ tail ++ rest) = a ++ (g1 ++ p ++ dots) ++ b ++ tail).
  { replace (a ++ (g1 ++ p ++ dots) ++ b ++ tail ++ rest) with ((a ++ (g1 ++ p ++ dots) ++ b ++ tail) ++ rest) by (rewrite <- !app_assoc; reflexivity).
    apply first_sub; [|exact HR]. rewrite (char_in_app' _ a), (char_in_app' _ (g1 ++ p ++ dots)), S1, (char_in_app' _ b), (neutral_no _ a), (neutral_no _ b), T4; auto. }
  assert (S3 : first_subtoken (g1 ++ p ++ dots) = g1 ++ p ++ dots) by (apply first_subtoken_nospace; exact S1).
  assert (D : count_char "."%char (a ++ (g1 ++ p ++ dots) ++ b ++ tail) = count_char "."%char (g1 ++ p ++ dots)).
  { rewrite (count_app _ a), (count_app _ (g1 ++ p ++ dots)), (count_app _ b).
    rewrite (count_none _ a), (count_none _ b), (count_none _ tail); [lia|exact T2|apply neutral_no; auto|apply neutral_no; auto]. }
  assert (HD : no_digit_head (dots ++ b ++ tail)).
  { destruct dots as [|x dots].
    - cbn. destruct b as [|x b]; [destruct HT as [->|(t & ->)]; [exact I|reflexivity]|].
      cbn. apply neutral_digit. unfold neutral_str in NB. cbn in NB. apply andb_true_iff in NB. tauto.
    - cbn in FD. apply andb_true_iff in FD. destruct FD as (FD & _). apply Ascii.eqb_eq in FD. subst x. reflexivity. }
  assert (HD0 : no_digit_head dots).
  { destruct dots as [|x dots]; [exact I|]. cbn in FD. apply andb_true_iff in FD. destruct FD as (FD & _). apply Ascii.eqb_eq in FD. subst x. reflexivity. }
  unfold recip_eval. rewrite Q1, Q2, S2, S3, D.
  assert (P1 : search_pct (a ++ (g1 ++ p ++ dots) ++ b ++ tail) = search_pct (g1 ++ p ++ dots)).
  { rewrite search_pct_skip by (apply neutral_no_digit; exact NA). destruct HP as [->|(g2 & -> & N2 & F2)].
    - rewrite !search_pct_none; [reflexivity| |].
      + cbn [app]. rewrite char_in_app', (digits_no _ g1), (dots_no _ dots); auto.
      + cbn [app]. rewrite <- app_assoc, !char_in_app', (digits_no _ g1), (dots_no _ dots), (neutral_no _ b), T1; auto.
    - cbn [app]. rewrite <- !app_assoc. cbn [app]. rewrite <- !app_assoc. rewrite !search_pct_here; auto. }
  assert (P2 : search_digits (a ++ (g1 ++ p ++ dots) ++ b ++ tail) = search_digits (g1 ++ p ++ dots)).
  { rewrite search_digits_skip by (apply neutral_no_digit; exact NA). rewrite <- !app_assoc.
    rewrite !search_digits_here; auto; destruct HP as [->|(g2 & -> & _)]; auto; reflexivity. }
  rewrite P1, P2. reflexivity.
Qed.

Lemma show_rhythm v : is_rhythm (show_N v).
Proof.
  exists (show_N v), [], []. cbn [app]. rewrite app_nil_r. split; [reflexivity|].
  destruct (show_N_cons v) as (c & s & E & _). split; [rewrite E; discriminate|]. split; [apply show_N_digits|]. auto.
Qed.

Lemma shape_duration v s : (0 < v)%N -> shape (show_N v) s -> exists q, duration_of s = Some q /\ (q == increment v)%Q.
Proof.
  intros V (a & b & rest & -> & NA & NB & OR). unfold duration_of.
  pose proof (read_first a (show_N v) b [] rest NA (show_rhythm v) NB (or_introl eq_refl) eq_refl eq_refl eq_refl eq_refl OR) as R.
  cbn [app] in R. rewrite R. destruct v as [|p]; [lia|].
  pose proof (recip_eval_plain p 0 4) as E. cbn [rep] in E. rewrite app_nil_r in E. unfold show_pos in E.
  rewrite E. eexists. split; [reflexivity|]. rewrite dot_factor_0. unfold increment, Qdiv, Qinv, inject_Z, Qeq, Qmult. cbn. lia.
Qed.

(** ** Deleting letters *)

Inductive del (T : ascii -> bool) : str -> str -> Prop :=
| del_nil : del T [] []
| del_keep : forall c s t, del T s t -> del T (c :: s) (c :: t)
| del_drop : forall c s t, T c = true -> del T s t -> del T (c :: s) t.

Lemma del_refl T s : del T s s.
Proof. induction s; constructor; assumption. Qed.
Lemma del_app T a b x y : del T a x -> del T b y -> del T (a ++ b) (x ++ y).
Proof. induction 1; intros Z; cbn; [exact Z|constructor; auto..]. Qed.
Lemma del_all T a : forallb T a = true -> del T a [].
Proof. induction a as [|c a IH]; cbn; [constructor|]. intros H. apply andb_true_iff in H. destruct H. constructor; auto. Qed.
Lemma del_app_inv T a : forall b z, del T (a ++ b) z -> exists x y, z = x ++ y /\ del T a x /\ del T b y.
Proof.
  induction a as [|c a IH]; intros b z H; cbn in H.
  - exists [], z. split; [reflexivity|]. split; [constructor|exact H].
  - inversion H as [|? ? t D E1 E2|? ? t TC D E1 E2]; subst.
    + destruct (IH b t D) as (x & y & -> & A & B). exists (c :: x), y. split; [reflexivity|]. split; [constructor; exact A|exact B].
    + destruct (IH b z D) as (x & y & -> & A & B). exists x, y. split; [reflexivity|]. split; [constructor; assumption|exact B].
Qed.
Lemma del_in T s t : del T s t -> forall c, In c t -> In c s.
Proof. induction 1; intros x I; cbn in *; [exact I|destruct I; auto|auto]. Qed.
Lemma del_none T s t : del T s t -> (forall c, In c s -> T c = false) -> t = s.
Proof.
  induction 1 as [|c s t H IH|c s t C H IH]; intros N; [reflexivity| |].
  - f_equal. apply IH. intros x I. apply N. right. exact I.
  - rewrite (N c (or_introl eq_refl)) in C. discriminate.
Qed.
Lemma del_neutral T s t : del T s t -> neutral_str s -> neutral_str t.
Proof. unfold neutral_str. rewrite !forallb_forall. intros D N c I. apply N. eapply del_in; eassumption. Qed.
Lemma del_other T s t : del T s t -> T " "%char = false -> other_notes s -> other_notes t.
Proof.
  intros D TS ([->|(r & ->)] & Q).
  - inversion D; subst. split; [left; reflexivity|reflexivity].
  - split.
    + inversion D as [|? ? y H|? ? y C H]; subst; [right; eauto|congruence].
    + apply char_in_false. apply char_in_false in Q. intros I. apply Q. eapply del_in; eassumption.
Qed.
Lemma del_shape T v s t : (forall c, is_digit c = true -> T c = false) -> T " "%char = false ->
  del T s t -> shape (show_N v) s -> shape (show_N v) t.
Proof.
  intros TD TS D (a & b & rest & -> & NA & NB & OR).
  apply del_app_inv in D. destruct D as (a' & z & -> & DA & D). apply del_app_inv in D. destruct D as (v' & z' & -> & DV & D).
  apply del_app_inv in D. destruct D as (b' & r' & -> & DB & DR).
  apply del_none in DV; [|intros c I; apply TD; pose proof (show_N_digits v) as X; rewrite forallb_forall in X; exact (X c I)]. subst v'.
  exists a', b', r'. split; [reflexivity|]. split; [eapply del_neutral; eassumption|]. split; [eapply del_neutral; eassumption|].
  eapply del_other; eassumption.
Qed.

Lemma span_len p (s : str) : length (snd (span p s)) <= length s.
Proof. pose proof (span_join p s) as J. destruct (span p s) as (x, y). cbn in *. subst s. rewrite app_length. lia. Qed.

Lemma remove_run_del set must : forall fuel s, del (fun c => set c || angle c) s (remove_run fuel set must s).
Proof.
  induction fuel as [|f IH]; intros s; [apply del_refl|]. cbn [remove_run]. destruct s as [|c r]; [constructor|].
  destruct (set c) eqn:C; [|constructor; apply IH].
  destruct (span set (c :: r)) as (run, rest) eqn:SP. apply span_iff in SP. destruct SP as (E & F & _).
  rewrite E. destruct (must && negb match rest with x :: _ => angle x | [] => false end).
  - apply del_app; [apply del_refl|apply IH].
  - assert (R : forallb (fun c => set c || angle c) run = true).
    { rewrite forallb_forall in *. intros x I. rewrite (F x I). reflexivity. }
    change (remove_run f set must (drop_angle rest)) with ([] ++ remove_run f set must (drop_angle rest)).
    apply del_app; [apply del_all; exact R|]. unfold drop_angle. destruct rest as [|x rest]; [apply IH|].
    destruct (angle x) eqn:X; [|apply IH]. apply del_drop; [rewrite X, orb_true_r; reflexivity|apply IH].
Qed.
Lemma remove_runs_shape set must v s : (forall c, is_digit c = true -> set c = false) -> set " "%char = false ->
  shape (show_N v) s -> shape (show_N v) (remove_runs set must s).
Proof.
  intros SD SS H. eapply del_shape; [| |apply remove_run_del|exact H].
  - cbv beta. intros c C. rewrite (SD c C). destruct (angle c) eqn:A; [|reflexivity]. exfalso. revert A C.
    unfold angle, char_in. cbn [existsb S_ list_ascii_of_string]. rewrite !orb_true_iff, !Ascii.eqb_eq.
    intros [->|[->|X]]; [discriminate|discriminate|discriminate X].
  - cbv beta. rewrite SS. reflexivity.
Qed.

(** ** Removing the mark *)

Lemma remove_cons m n c r : starts_with m (c :: r) = false -> remove_all (S n) m (c :: r) = c :: remove_all n m r.
Proof. intros H. cbn [remove_all]. rewrite H. reflexivity. Qed.
Lemma remove_fuel m : m <> [] -> forall n n' s, length s <= n -> length s <= n' -> remove_all n m s = remove_all n' m s.
Proof.
  intros NE. induction n as [|n IH]; intros n' s L L'.
  - destruct s; [|cbn in L; lia]. destruct n'; reflexivity.
  - destruct s as [|c s]; [destruct n'; reflexivity|]. destruct n' as [|n']; [cbn in L'; lia|]. cbn in L, L'.
    cbn [remove_all]. destruct (starts_with m (c :: s)).
    + destruct m as [|x m]; [contradiction|]. cbn [length skipn]. apply IH; rewrite skipn_length; lia.
    + f_equal. apply IH; lia.
Qed.
Lemma remove_skip m x : forall a s n, ~ In x a -> length (a ++ s) <= n -> remove_all n (x :: m) (a ++ s) = a ++ remove_all n (x :: m) s.
Proof.
  induction a as [|c a IH]; intros s n N L; [reflexivity|]. cbn [app] in *. destruct n as [|n]; [cbn in L; lia|]. cbn in L.
  rewrite remove_cons.
  - f_equal. rewrite IH; [|intros I; apply N; right; exact I|lia]. f_equal.
    apply remove_fuel; [discriminate| |]; rewrite app_length in L; lia.
  - cbn. destruct (Ascii.eqb x c) eqn:E; [|reflexivity]. apply Ascii.eqb_eq in E. subst c. exfalso. apply N. left. reflexivity.
Qed.
Lemma remove_here m s n : m <> [] -> length (m ++ s) <= n -> remove_all n m (m ++ s) = remove_all n m s.
Proof.
  intros NE L. destruct n as [|n]; [rewrite app_length in L; destruct m; [contradiction|cbn in L; lia]|].
  destruct m as [|c m]; [contradiction|]. cbn [app remove_all].
  assert (ST : starts_with (c :: m) (c :: m ++ s) = true) by (apply starts_iff; exists s; reflexivity).
  rewrite ST. change (c :: m ++ s) with ((c :: m) ++ s). rewrite skipn_app, skipn_all, Nat.sub_diag. cbn [app skipn].
  apply (remove_fuel (c :: m) NE n (S n) s); rewrite app_length in L; cbn in L; lia.
Qed.
Lemma remove_in m : forall n s c, In c (remove_all n m s) -> In c s.
Proof.
  induction n as [|n IH]; intros s c I; [exact I|]. cbn [remove_all] in I. destruct s as [|x s]; [exact I|].
  destruct (starts_with m (x :: s)).
  - apply IH in I. rewrite <- (firstn_skipn (length m) (x :: s)). apply in_or_app. right. exact I.
  - destruct I as [->|I]; [left; reflexivity|right; apply IH in I; exact I].
Qed.

(** ** Setting the rhythm *)

Lemma skip_percent_len s : length (skip_percent s) <= length s.
Proof. destruct s as [|c s]; cbn; [lia|]. destruct (Ascii.eqb c "%"%char); cbn; lia. Qed.
Lemma after_rhythm_len c s : is_digit c = true -> length (after_rhythm (c :: s)) <= length s.
Proof.
  intros C. unfold after_rhythm.
  pose proof (span_len is_dot (snd (span is_digit (skip_percent (snd (span is_digit (c :: s))))))) as A.
  pose proof (span_len is_digit (skip_percent (snd (span is_digit (c :: s))))) as B.
  pose proof (skip_percent_len (snd (span is_digit (c :: s)))) as D.
  assert (E : length (snd (span is_digit (c :: s))) <= length s).
  { cbn [span]. rewrite C. pose proof (span_len is_digit s) as X. destruct (span is_digit s) as (u, w). cbn in *. exact X. }
  lia.
Qed.
Lemma rhythm_fuel new : forall n n' s, length s <= n -> length s <= n' -> set_rhythm n new s = set_rhythm n' new s.
Proof.
  induction n as [|n IH]; intros n' s L L'.
  - destruct s; [|cbn in L; lia]. destruct n'; reflexivity.
  - destruct s as [|c s]; [destruct n'; reflexivity|]. destruct n' as [|n']; [cbn in L'; lia|]. cbn in L, L'. cbn [set_rhythm].
    destruct (is_digit c) eqn:C; f_equal; apply IH; try lia; pose proof (after_rhythm_len c s C); lia.
Qed.
Lemma rhythm_skip new : forall a s n, (forall c, In c a -> is_digit c = false) -> length (a ++ s) <= n ->
  set_rhythm n new (a ++ s) = a ++ set_rhythm n new s.
Proof.
  induction a as [|c a IH]; intros s n N L; [reflexivity|]. cbn [app] in *. destruct n as [|n]; [cbn in L; lia|]. cbn in L.
  cbn [set_rhythm]. rewrite (N c (or_introl eq_refl)). f_equal. rewrite IH; [|intros; apply N; right; assumption|lia]. f_equal.
  apply (rhythm_fuel new n (S n) s); rewrite app_length in L; lia.
Qed.
Lemma after_rhythm_spec r s : is_rhythm r -> match s with [] => True | c :: _ => is_digit c = false /\ is_dot c = false /\ c <> "%"%char end ->
  after_rhythm (r ++ s) = s.
Proof.
  intros (g1 & p & dots & -> & N1 & F1 & HP & FD) H. unfold after_rhythm.
  assert (HS : no_more is_dot s) by (destruct s; [exact I|cbn; tauto]).
  assert (DOTS : span is_dot (dots ++ s) = (dots, s)) by (apply span_iff; auto).
  assert (ND : no_digit_head (dots ++ s)).
  { destruct dots as [|x d]; [destruct s; [exact I|cbn; tauto]|]. cbn in FD. apply andb_true_iff in FD. destruct FD as (FD & _).
    apply Ascii.eqb_eq in FD. subst x. reflexivity. }
  assert (NP : skip_percent (dots ++ s) = dots ++ s).
  { destruct dots as [|x d].
    - cbn. destruct s as [|c s]; [reflexivity|]. cbn. destruct (Ascii.eqb c "%"%char) eqn:E; [apply Ascii.eqb_eq in E; tauto|reflexivity].
    - cbn in FD. apply andb_true_iff in FD. destruct FD as (FD & _). apply Ascii.eqb_eq in FD. subst x. reflexivity. }
  rewrite <- !app_assoc. rewrite span_app_all; [|exact F1|].
  2:{ destruct HP as [->|(g2 & -> & _)]; [exact ND|reflexivity]. }
  cbn [snd]. destruct HP as [->|(g2 & -> & N2 & F2)].
  - cbn [app]. rewrite NP. assert (Z : span is_digit (dots ++ s) = ([], dots ++ s)) by (apply span_iff; split; [reflexivity|]; split; [reflexivity|exact ND]).
    rewrite Z. cbn [snd]. rewrite DOTS. reflexivity.
  - cbn [app skip_percent]. rewrite (Ascii.eqb_refl "%"%char). rewrite span_app_all by assumption. cbn [snd]. rewrite DOTS. reflexivity.
Qed.
Lemma rhythm_here new r s n : is_rhythm r -> match s with [] => True | c :: _ => is_digit c = false /\ is_dot c = false /\ c <> "%"%char end ->
  length (r ++ s) <= n -> set_rhythm n new (r ++ s) = new ++ set_rhythm n new s.
Proof.
  intros R H L. pose proof (after_rhythm_spec r s R H) as AR. destruct R as (g1 & p & dots & E & N1 & F1 & _).
  assert (X : exists c r', r = c :: r' /\ is_digit c = true).
  { destruct g1 as [|c g1]; [contradiction|]. cbn in F1. apply andb_true_iff in F1. exists c, (g1 ++ p ++ dots). split; [exact E|tauto]. }
  destruct X as (c & r' & -> & C). destruct n as [|n]; [cbn in L; lia|]. cbn [app] in *. cbn in L. cbn [set_rhythm].
  rewrite C, AR. f_equal. apply (rhythm_fuel new n (S n) s); rewrite app_length in L; lia.
Qed.
Lemma rhythm_in new : forall n s c, In c (set_rhythm n new s) -> In c s \/ In c new.
Proof.
  assert (AR : forall s c, In c (after_rhythm s) -> In c s).
  { intros s c. unfold after_rhythm.
    assert (SN : forall p (u : str) x, In x (snd (span p u)) -> In x u).
    { intros p u x I. rewrite <- (span_join p u). apply in_or_app. right. exact I. }
    intros I. apply SN in I. apply SN in I. assert (J : In c (snd (span is_digit s))).
    { destruct (snd (span is_digit s)) as [|y z]; [exact I|]. cbn in I. destruct (Ascii.eqb y "%"%char); [right; exact I|exact I]. }
    apply SN in J. exact J. }
  induction n as [|n IH]; intros s c I; [left; exact I|]. cbn [set_rhythm] in I. destruct s as [|x s]; [destruct I|].
  destruct (is_digit x).
  - apply in_app_or in I. destruct I as [I|I]; [right; exact I|]. destruct (IH _ _ I) as [J|J]; [left; apply AR; exact J|right; exact J].
  - destruct I as [->|I]; [left; left; reflexivity|]. destruct (IH _ _ I) as [J|J]; [left; right; exact J|right; exact J].
Qed.

(** ** The texts of a tremolo *)

(** A note or chord with a tremolo mark behind the rhythm of its first note. *)
Definition marked_note (a r b1 : str) (v : N) (b2 rest : str) : str := a ++ r ++ b1 ++ markup v ++ b2 ++ rest.

Lemma other_remove m n s : m <> [] -> hd " "%char m = at_sign -> length s <= n -> other_notes s -> other_notes (remove_all n m s).
Proof.
  intros NE HM L (H & Q). split.
  - destruct H as [->|(r & ->)]; [left; destruct n; reflexivity|]. right. destruct n as [|n]; [cbn in L; lia|].
    destruct m as [|x m]; [contradiction|]. cbn in HM. subst x. rewrite remove_cons by reflexivity. eauto.
  - apply char_in_false. apply char_in_false in Q. intros I. apply Q. eapply remove_in. exact I.
Qed.
Lemma other_rhythm n new s : ~ In "q"%char new -> length s <= n -> other_notes s -> other_notes (set_rhythm n new s).
Proof.
  intros NN L (H & Q). split.
  - destruct H as [->|(r & ->)]; [left; destruct n; reflexivity|]. right. destruct n as [|n]; [cbn in L; lia|]. cbn. eauto.
  - apply char_in_false. apply char_in_false in Q. intros I. apply rhythm_in in I. tauto.
Qed.
Lemma filter_del T s : del T s (filter (fun c => negb (T c)) s).
Proof. induction s as [|c s IH]; [constructor|]. cbn. destruct (T c) eqn:E; cbn; constructor; assumption. Qed.
Lemma filter_none (T : ascii -> bool) s : (forall c, In c s -> T c = false) -> filter (fun c => negb (T c)) s = s.
Proof. intros H. eapply del_none; [apply filter_del|exact H]. Qed.

Lemma markup_cons v : markup v = at_sign :: show_N v ++ [at_sign].
Proof. reflexivity. Qed.
Lemma neutral_no_at s : neutral_str s -> ~ In at_sign s.
Proof. intros N. apply char_in_false. apply neutral_no; [exact N|reflexivity]. Qed.
Lemma rhythm_chars r c : is_rhythm r -> In c r -> is_digit c = true \/ c = "%"%char \/ c = "."%char.
Proof.
  intros (g1 & p & dots & -> & _ & F1 & HP & FD) I. rewrite forallb_forall in F1, FD. apply in_app_or in I. destruct I as [I|I]; [left; auto|].
  apply in_app_or in I. destruct I as [I|I].
  - destruct HP as [->|(g2 & -> & _ & F2)]; [destruct I|]. destruct I as [<-|I]; [auto|]. rewrite forallb_forall in F2. auto.
  - right. right. apply FD in I. apply Ascii.eqb_eq in I. exact I.
Qed.

Definition base_text (v : N) (text : str) : str :=
  let base1 := remove_beams (remove_markup v text) in set_rhythm (length base1) (show_N v) base1.

Lemma base_shape a r b1 v b2 rest : neutral_str a -> is_rhythm r -> neutral_str b1 -> neutral_str b2 -> other_notes rest ->
  shape (show_N v) (base_text v (marked_note a r b1 v b2 rest)).
Proof.
  intros NA R N1 N2 OR. unfold base_text, remove_markup.
  assert (NR : ~ In at_sign r).
  { intros I. destruct (rhythm_chars r _ R I) as [X|[X|X]]; discriminate X. }
  assert (E : remove_all (length (marked_note a r b1 v b2 rest)) (markup v) (marked_note a r b1 v b2 rest)
              = a ++ r ++ b1 ++ b2 ++ remove_all (length (marked_note a r b1 v b2 rest)) (markup v) rest).
  { set (n := length (marked_note a r b1 v b2 rest)).
    assert (LN : length a + (length r + (length b1 + (length (markup v) + (length b2 + length rest)))) <= n) by (unfold n, marked_note; rewrite !app_length; lia).
    unfold marked_note. rewrite markup_cons in *.
    rewrite remove_skip; [|apply neutral_no_at; exact NA|rewrite !app_length; lia]. f_equal.
    rewrite remove_skip; [|exact NR|rewrite !app_length; lia]. f_equal.
    rewrite remove_skip; [|apply neutral_no_at; exact N1|rewrite !app_length; lia]. f_equal.
    rewrite remove_here; [|discriminate|rewrite !app_length; lia].
    rewrite remove_skip; [reflexivity|apply neutral_no_at; exact N2|rewrite !app_length; lia]. }
  rewrite E. set (rest1 := remove_all _ _ rest).
  assert (O1 : other_notes rest1).
  { apply other_remove; [rewrite markup_cons; discriminate|reflexivity| |exact OR]. unfold marked_note. rewrite !app_length. lia. }
  unfold remove_beams. rewrite !filter_app.
  assert (FR : filter (fun c => negb (beam_char c)) r = r).
  { apply filter_none. intros c I. destruct (rhythm_chars r c R I) as [X|[->| ->]]; [|reflexivity|reflexivity].
    destruct (beam_char c) eqn:B; [|reflexivity]. exfalso. revert B X. unfold beam_char, char_in. cbn [existsb S_ list_ascii_of_string].
    rewrite !orb_true_iff, !Ascii.eqb_eq. intros [->|[->|[->|[->|Y]]]] X; discriminate. }
  rewrite FR. set (fa := filter _ a). set (f1 := filter _ b1). set (f2 := filter _ b2). set (fr := filter _ rest1).
  assert (FA : neutral_str fa) by (eapply del_neutral; [apply filter_del|exact NA]).
  assert (F1 : neutral_str f1) by (eapply del_neutral; [apply filter_del|exact N1]).
  assert (F2 : neutral_str f2) by (eapply del_neutral; [apply filter_del|exact N2]).
  assert (O2 : other_notes fr) by (eapply del_other; [apply filter_del|reflexivity|exact O1]).
  set (n := length (fa ++ r ++ f1 ++ f2 ++ fr)).
  assert (LN : length fa + (length r + (length f1 + (length f2 + length fr))) <= n) by (unfold n; rewrite !app_length; lia).
  rewrite rhythm_skip; [|apply neutral_no_digit; exact FA|rewrite !app_length; lia].
  assert (NE : match f1 ++ f2 ++ fr with [] => True | c :: _ => is_digit c = false /\ is_dot c = false /\ c <> "%"%char end).
  { assert (G : forall c s, neutral_str (c :: s) -> is_digit c = false /\ is_dot c = false /\ c <> "%"%char).
    { intros c s H. unfold neutral_str in H. cbn in H. apply andb_true_iff in H. destruct H as (H & _).
      split; [apply neutral_digit; exact H|]. split.
      - destruct (is_dot c) eqn:D; [|reflexivity]. apply Ascii.eqb_eq in D. exfalso. exact (neutral_not c "." H eq_refl D).
      - exact (neutral_not c "%" H eq_refl). }
    destruct f1 as [|c f1']; [|exact (G c f1' F1)]. cbn. destruct f2 as [|c f2']; [|exact (G c f2' F2)]. cbn.
    destruct O2 as ([->|(z & ->)] & _); [exact I|]. split; [reflexivity|]. split; [reflexivity|discriminate]. }
  rewrite rhythm_here; [|exact R|exact NE|rewrite !app_length; lia].
  replace (f1 ++ f2 ++ fr) with ((f1 ++ f2) ++ fr) by (rewrite <- app_assoc; reflexivity).
  assert (F12 : neutral_str (f1 ++ f2)) by (unfold neutral_str in *; rewrite forallb_app, F1, F2; reflexivity).
  rewrite rhythm_skip; [|apply neutral_no_digit; exact F12|rewrite !app_length; lia].
  exists fa, (f1 ++ f2), (set_rhythm n (show_N v) fr). split; [reflexivity|]. split; [exact FA|]. split; [exact F12|].
  apply other_rhythm; [|lia|exact O2]. intros I. pose proof (show_N_digits v) as X. rewrite forallb_forall in X. specialize (X _ I). discriminate.
Qed.

Lemma shape_append v s t : neutral_str t -> shape (show_N v) s -> shape (show_N v) (s ++ t).
Proof.
  intros N (a & b & rest & -> & NA & NB & (H & Q)). destruct H as [->|(r & ->)].
  - exists a, (b ++ t), []. rewrite !app_nil_r, <- !app_assoc. split; [reflexivity|]. split; [exact NA|].
    split; [unfold neutral_str in *; rewrite forallb_app, NB, N; reflexivity|]. split; [left; reflexivity|reflexivity].
  - exists a, b, (" "%char :: r ++ t). split; [rewrite <- !app_assoc; reflexivity|]. split; [exact NA|]. split; [exact NB|].
    split; [right; eauto|]. rewrite app_comm_cons, char_in_app', Q, (neutral_no _ t N); reflexivity.
Qed.
Lemma rep_neutral c n : neutral c = true -> neutral_str (rep c n).
Proof. intros H. unfold neutral_str. induction n; cbn; [reflexivity|]. rewrite H. exact IHn. Qed.

Lemma set_digit_free l : forallb (fun c => negb (is_digit c)) l = true -> forall c, is_digit c = true -> char_in c l = false.
Proof. intros F c D. apply char_in_false. intros I. rewrite forallb_forall in F. specialize (F c I). rewrite D in F. discriminate. Qed.

Lemma texts_shape a r b1 v b2 rest add : neutral_str a -> is_rhythm r -> neutral_str b1 -> neutral_str b2 -> other_notes rest ->
  let t := tremolo_texts v add (marked_note a r b1 v b2 rest) in
  shape (show_N v) (t_initial t) /\ shape (show_N v) (t_base t) /\ shape (show_N v) (t_terminal t).
Proof.
  intros NA R N1 N2 OR. cbv zeta. pose proof (base_shape a r b1 v b2 rest NA R N1 N2 OR) as B.
  unfold tremolo_texts, base_text in *. cbv zeta in *. cbn [t_initial t_base t_terminal].
  set (base := set_rhythm _ _ _) in *. clearbody base.
  assert (T1 : forall c, is_digit c = true -> tie_mid c = false).
  { intros c C. unfold tie_mid. destruct (Ascii.eqb c "_"%char) eqn:E; [|reflexivity]. apply Ascii.eqb_eq in E. subst c. discriminate. }
  assert (T2 : forall c, is_digit c = true -> tie_any c = false) by (intros c C; apply set_digit_free; [reflexivity|exact C]).
  assert (T3 : forall c, is_digit c = true -> slur_open c = false).
  { intros c C. unfold slur_open. destruct (Ascii.eqb c "("%char) eqn:E; [|reflexivity]. apply Ascii.eqb_eq in E. subst c. discriminate. }
  assert (AP : forall (h : bool) c, neutral c = true -> shape (show_N v) (if h then base ++ rep c (beam_count v) else base)).
  { intros h c C. destruct h; [apply shape_append; [apply rep_neutral; exact C|exact B]|exact B]. }
  split; [|split].
  - apply remove_runs_shape; [exact T1|reflexivity|apply AP; reflexivity].
  - apply remove_runs_shape; [exact T2|reflexivity|exact B].
  - apply remove_runs_shape; [exact T3|reflexivity|]. apply remove_runs_shape; [exact T2|reflexivity|apply AP; reflexivity].
Qed.

(** ** What the texts keep *)

(** Letters that are neither part of a rhythm or of a tremolo mark nor of beams, ties or slur beginnings. *)
Definition kept (c : ascii) : bool := negb (is_digit c || char_in c (S_ ".%@LJKk[]_<>(")).
Definition keeps (s : str) : str := filter kept s.

Lemma keeps_app a b : keeps (a ++ b) = keeps a ++ keeps b.
Proof. apply filter_app. Qed.
Lemma keeps_none s : (forall c, In c s -> kept c = false) -> keeps s = [].
Proof.
  induction s as [|c s IH]; intros H; [reflexivity|]. cbn. rewrite (H c (or_introl eq_refl)). apply IH. intros x I. apply H. right. exact I.
Qed.
Lemma del_keeps T s t : (forall c, T c = true -> kept c = false) -> del T s t -> keeps t = keeps s.
Proof.
  intros H. induction 1 as [|c s t D IH|c s t C D IH]; cbn; [reflexivity| |].
  - destruct (kept c); [f_equal|]; exact IH.
  - rewrite (H c C). exact IH.
Qed.
Lemma remove_keeps m : (forall c, In c m -> kept c = false) -> forall n s, keeps (remove_all n m s) = keeps s.
Proof.
  intros H. induction n as [|n IH]; intros s; [reflexivity|]. cbn [remove_all]. destruct s as [|c s]; [reflexivity|].
  destruct (starts_with m (c :: s)) eqn:E.
  - apply starts_iff in E. destruct E as (r & E). rewrite E, skipn_app, skipn_all, Nat.sub_diag. cbn [app skipn]. rewrite IH, keeps_app, (keeps_none m H). reflexivity.
  - cbn. destruct (kept c); [f_equal|]; apply IH.
Qed.
Lemma digit_not_kept c : is_digit c = true -> kept c = false.
Proof. unfold kept. intros ->. reflexivity. Qed.
Lemma in_not_kept c l : char_in c l = true -> forallb (fun x => negb (kept x)) l = true -> kept c = false.
Proof.
  unfold char_in. rewrite existsb_exists, forallb_forall. intros (x & I & E) F. apply Ascii.eqb_eq in E. subst x.
  specialize (F c I). apply negb_true_iff. exact F.
Qed.
Lemma span_keeps p s : (forall c, p c = true -> kept c = false) -> keeps (snd (span p s)) = keeps s.
Proof.
  intros H. rewrite <- (span_join p s) at 2. rewrite keeps_app, (keeps_none (fst (span p s))); [reflexivity|].
  intros c I. apply H. pose proof (span_fst_all p s) as F. rewrite forallb_forall in F. exact (F c I).
Qed.
Lemma after_keeps s : keeps (after_rhythm s) = keeps s.
Proof.
  unfold after_rhythm. rewrite span_keeps.
  2:{ intros c C. apply Ascii.eqb_eq in C. subst c. reflexivity. }
  rewrite span_keeps by apply digit_not_kept.
  assert (P : forall u, keeps (skip_percent u) = keeps u).
  { intros [|c u]; [reflexivity|]. cbn. destruct (Ascii.eqb c "%"%char) eqn:E; [|reflexivity]. apply Ascii.eqb_eq in E. subst c. reflexivity. }
  rewrite P, span_keeps by apply digit_not_kept. reflexivity.
Qed.
Lemma rhythm_keeps new : (forall c, In c new -> kept c = false) -> forall n s, keeps (set_rhythm n new s) = keeps s.
Proof.
  intros H. induction n as [|n IH]; intros s; [reflexivity|]. cbn [set_rhythm]. destruct s as [|c s]; [reflexivity|].
  destruct (is_digit c) eqn:E.
  - rewrite keeps_app, (keeps_none new H), IH, after_keeps. reflexivity.
  - cbn. destruct (kept c); [f_equal|]; apply IH.
Qed.
Lemma run_keeps set must s : (forall c, set c = true -> kept c = false) -> keeps (remove_runs set must s) = keeps s.
Proof.
  intros H. eapply del_keeps; [|apply remove_run_del]. cbv beta. intros c C. apply orb_true_iff in C. destruct C as [C|C]; [exact (H c C)|].
  eapply in_not_kept; [exact C|reflexivity].
Qed.
Lemma show_not_kept v c : In c (show_N v) -> kept c = false.
Proof. intros I. apply digit_not_kept. pose proof (show_N_digits v) as X. rewrite forallb_forall in X. exact (X c I). Qed.

Lemma texts_keeps v add text : let t := tremolo_texts v add text in
  keeps (t_initial t) = keeps text /\ keeps (t_base t) = keeps text /\ keeps (t_terminal t) = keeps text.
Proof.
  cbv zeta. unfold tremolo_texts. cbv zeta. cbn [t_initial t_base t_terminal].
  set (base := set_rhythm _ _ _).
  assert (B : keeps base = keeps text).
  { unfold base. rewrite rhythm_keeps by apply show_not_kept. unfold remove_beams, remove_markup.
    rewrite (del_keeps beam_char (remove_all (length text) (markup v) text) _); [|intros c C; eapply in_not_kept; [exact C|reflexivity]|apply filter_del].
    apply remove_keeps. intros c I. rewrite markup_cons in I. destruct I as [<-|I]; [reflexivity|]. apply in_app_or in I.
    destruct I as [I|[<-|[]]]; [eapply show_not_kept; exact I|reflexivity]. }
  clearbody base.
  assert (T1 : forall c, tie_mid c = true -> kept c = false) by (intros c C; apply Ascii.eqb_eq in C; subst c; reflexivity).
  assert (T2 : forall c, tie_any c = true -> kept c = false) by (intros c C; eapply in_not_kept; [exact C|reflexivity]).
  assert (T3 : forall c, slur_open c = true -> kept c = false) by (intros c C; apply Ascii.eqb_eq in C; subst c; reflexivity).
  assert (RP : forall c k, kept c = false -> keeps (rep c k) = []) by (intros c k C; induction k; cbn; [reflexivity|rewrite C; exact IHk]).
  assert (AP : forall (h : bool) c, kept c = false -> keeps (if h then base ++ rep c (beam_count v) else base) = keeps text).
  { intros h c C. destruct h; [rewrite keeps_app, (RP c _ C), app_nil_r|]; exact B. }
  split; [|split].
  - rewrite run_keeps by exact T1. apply AP. reflexivity.
  - rewrite run_keeps by exact T2. exact B.
  - rewrite run_keeps by exact T3. rewrite run_keeps by exact T2. apply AP. reflexivity.
Qed.

(** ** Reading the mark *)

Lemma search_skip {A} (m : str -> option A) a s : (forall c b, In c a -> m (c :: b) = None) -> search m (a ++ s) = search m s.
Proof.
  induction a as [|c a IH]; intros H; [reflexivity|]. cbn [app search]. rewrite (H c (a ++ s) (or_introl eq_refl)).
  apply IH. intros x b I. apply H. right. exact I.
Qed.
Lemma find_marked a r b1 v b2 rest : neutral_str a -> is_rhythm r -> neutral_str b1 ->
  find_markup (marked_note a r b1 v b2 rest) = Some v.
Proof.
  intros NA R N1. unfold find_markup, marked_note.
  assert (K : forall x, ~ In at_sign x -> forall c b, In c x -> markup_here (c :: b) = None).
  { intros x N c b I. unfold markup_here. destruct (Ascii.eqb c at_sign) eqn:E; [|reflexivity]. apply Ascii.eqb_eq in E. subst c. contradiction. }
  rewrite search_skip by (apply K, neutral_no_at; exact NA).
  rewrite search_skip.
  2:{ apply K. intros I. destruct (rhythm_chars r _ R I) as [X|[X|X]]; discriminate X. }
  rewrite search_skip by (apply K, neutral_no_at; exact N1).
  apply search_here. rewrite markup_cons. cbn [app]. unfold markup_here. rewrite (Ascii.eqb_refl at_sign). rewrite <- app_assoc.
  rewrite span_app_all; [|apply show_N_digits|reflexivity]. cbn [app].
  pose proof (parse_show_N v) as P. destruct (show_N_cons v) as (c & s & E & _). rewrite E in *. rewrite (Ascii.eqb_refl at_sign), P. reflexivity.
Qed.
Lemma duration_marked a r b1 v b2 rest : neutral_str a -> is_rhythm r -> neutral_str b1 -> neutral_str b2 -> other_notes rest ->
  duration_of (marked_note a r b1 v b2 rest) = duration_of r.
Proof.
  intros NA R N1 N2 OR. unfold duration_of, marked_note.
  replace (a ++ r ++ b1 ++ markup v ++ b2 ++ rest) with (a ++ r ++ b1 ++ (markup v ++ b2) ++ rest) by (rewrite <- !app_assoc; reflexivity).
  assert (T : forall c, char_in c (S_ ".%q ") = true -> char_in c (markup v ++ b2) = false).
  { intros c C. rewrite char_in_app', markup_cons, char_in_cons', char_in_app'.
    assert (D : is_digit c = false /\ Ascii.eqb c at_sign = false /\ char_in c (S_ ".%q @") = true).
    { revert C. unfold char_in. cbn [existsb S_ list_ascii_of_string]. rewrite !orb_true_iff, !Ascii.eqb_eq.
      intros [->|[->|[->|[->|X]]]]; [repeat split; auto..|discriminate]. }
    destruct D as (D & E & F). rewrite E, (digits_no c (show_N v) (show_N_digits v) D), (neutral_no c b2 N2 F). cbn. rewrite E. reflexivity. }
  rewrite read_first; auto. right. exists (show_N v ++ [at_sign] ++ b2). rewrite markup_cons. cbn [app]. rewrite <- app_assoc. reflexivity.
Qed.

(** ** The whole column *)

Lemma note_count_spec d v n : (d * inject_Z (Z.of_N v) == 4 * inject_Z (Z.of_nat n))%Q -> note_count d v = Some n.
Proof.
  intros H. unfold note_count.
  assert (E : Qred (d * inject_Z (Z.of_N v) / 4) = inject_Z (Z.of_nat n)).
  { assert (X : (d * inject_Z (Z.of_N v) / 4 == inject_Z (Z.of_nat n))%Q) by (rewrite H; field).
    apply Qred_complete in X. rewrite X. apply Qcanon.Qred_identity. apply Z.gcd_1_r. }
  rewrite E. cbn [inject_Z Qden Qnum]. rewrite Nat2Z.id. reflexivity.
Qed.
Lemma increment_pos v : (0 < v)%N -> (0 < increment v)%Q.
Proof.
  intros V. unfold increment, Qdiv. apply Qmult_lt_0_compat; [reflexivity|]. apply Qinv_lt_0_compat.
  change 0%Q with (inject_Z 0). rewrite <- Zlt_Qlt. lia.
Qed.
Lemma increment_total d v n : (0 < v)%N -> (d * inject_Z (Z.of_N v) == 4 * inject_Z (Z.of_nat n))%Q ->
  (increment v * inject_Z (Z.of_nat n) == d)%Q.
Proof.
  intros V H. unfold increment.
  assert (NZ : ~ (inject_Z (Z.of_N v) == 0)%Q) by (unfold inject_Z, Qeq; cbn; lia).
  assert (X : (4 / inject_Z (Z.of_N v) * inject_Z (Z.of_nat n) == (4 * inject_Z (Z.of_nat n)) / inject_Z (Z.of_N v))%Q) by (field; exact NZ).
  rewrite X, <- H. field. exact NZ.
Qed.

Lemma chain_app a l : forall t e, chain t (a ++ l) e -> exists t', chain t' l e /\ chain t a t'.
Proof.
  induction a as [|c a IH]; intros t e H; cbn in *; [exists t; split; [exact H|reflexivity]|].
  destruct (c_data c); [|exact (IH t e H)]. destruct H as (A & B & C). destruct (IH _ _ C) as (t' & D & E). exists t'. auto.
Qed.
Lemma chain_before l : forall t e, chain t l e -> forall c, In c l -> c_data c = true -> (c_time c + c_dur c <= e)%Q /\ (0 <= c_dur c)%Q.
Proof.
  induction l as [|d l IH]; intros t e H c I D; [destruct I|]. cbn in H. destruct I as [->|I].
  - rewrite D in H. destruct H as (A & B & C). apply chain_le in C. split; lra.
  - destruct (c_data d); [|exact (IH _ _ H c I D)]. destruct H as (_ & _ & C). exact (IH _ _ C c I D).
Qed.

(** Two sounding lines of a column do not start together. *)
Lemma chain_apart l : forall t e, chain t l e -> forall i j x y, nth_error l i = Some x -> nth_error l j = Some y ->
  sounding x -> sounding y -> (c_time x == c_time y)%Q -> i = j.
Proof.
  assert (G : forall c l0 t e, c_data c = true -> (c_time c == t)%Q -> (0 <= c_dur c)%Q -> chain (t + c_dur c)%Q l0 e -> sounding c ->
    forall i y, nth_error l0 i = Some y -> sounding y -> (c_time c == c_time y)%Q -> False).
  { intros c l0 t e D T P C (_ & NZ) i y E (DY & _) Q. apply nth_error_In in E. pose proof (chain_times _ _ _ C y E DY).
    apply NZ. lra. }
  induction l as [|c l IH]; intros t e H i j x y EI EJ SX SY Q; [destruct i; discriminate|].
  cbn in H. destruct i as [|i], j as [|j]; cbn in EI, EJ.
  - reflexivity.
  - injection EI as ->. exfalso. destruct SX as (D & NZ). rewrite D in H. destruct H as (A & B & C).
    eapply (G x l); [exact D|exact A|exact B|exact C|split; assumption|exact EJ|exact SY|exact Q].
  - injection EJ as ->. exfalso. destruct SY as (D & NZ). rewrite D in H. destruct H as (A & B & C).
    eapply (G y l); [exact D|exact A|exact B|exact C|split; assumption|exact EI|exact SX|symmetry; exact Q].
  - f_equal. destruct (c_data c).
    + destruct H as (_ & _ & C). eapply IH; eassumption.
    + eapply IH; eassumption.
Qed.

Lemma forall2_nth {A} (P : A -> A -> Prop) l o : Forall2 P l o -> forall i x, nth_error l i = Some x -> exists y, nth_error o i = Some y /\ P x y.
Proof.
  induction 1 as [|a b l o W F IH]; intros i x E; [destruct i; discriminate|]. destruct i as [|i]; cbn in E |- *; [injection E as <-; eauto|eauto].
Qed.
Lemma forall2_nth' {A} (P : A -> A -> Prop) l o : Forall2 P l o -> forall i y, nth_error o i = Some y -> exists x, nth_error l i = Some x /\ P x y.
Proof.
  induction 1 as [|a b l o W F IH]; intros i x E; [destruct i; discriminate|]. destruct i as [|i]; cbn in E |- *; [injection E as <-; eauto|eauto].
Qed.

Lemma process_spec t e pre tok post a r b1 v b2 rest d n :
  chain t (pre ++ tok :: post) e -> sounding tok -> c_text tok = marked_note a r b1 v b2 rest ->
  neutral_str a -> is_rhythm r -> neutral_str b1 -> neutral_str b2 -> other_notes rest ->
  (8 <= v)%N -> duration_of r = Some d -> (d * inject_Z (Z.of_N v) == 4 * inject_Z (Z.of_nat n))%Q -> 2 <= n ->
  (c_time tok + d <= e)%Q ->
  exists room out, processFile (length pre) (pre ++ tok :: post) = Some out
    /\ with_nulls (pre ++ tok :: post) room /\ chain t room e
    /\ (forall k, k < n -> exists c, In c room /\ place_of (c_time tok) (increment v) k c)
    /\ Forall2 (fun c c' =>
         (exists k q, k < n /\ place_of (c_time tok) (increment v) k c /\ c' = set_text (c_text c') c
                      /\ duration_of (c_text c') = Some q /\ (q == increment v)%Q /\ keeps (c_text c') = keeps (c_text tok))
         \/ (forall k, k < n -> ~ place_of (c_time tok) (increment v) k c) /\ c' = c) room out.
Proof.
  intros CH ST TX NA R N1 N2 OR V8 DU CNT N2' END.
  assert (V0 : (0 < v)%N) by lia. pose proof (increment_pos v V0) as IP. pose proof (increment_total d v n V0 CNT) as IT.
  assert (FM : forall c, c_text c = c_text tok -> find_markup (c_text c) = Some v) by (intros c E; rewrite E, TX; apply find_marked; assumption).
  assert (DM : forall c, c_text c = c_text tok -> duration_of (c_text c) = Some d) by (intros c E; rewrite E, TX, duration_marked; assumption).
  pose proof (note_count_spec d v n CNT) as NC.
  assert (TLE : (t <= c_time tok)%Q).
  { apply (chain_times _ _ _ CH tok); [apply in_or_app; right; left; reflexivity|apply ST]. }
  assert (KS : Forall (fun k => 0 < k /\ (at_step (c_time tok) (increment v) k < e)%Q) (seq 1 (n - 1))).
  { apply Forall_forall. intros k I. apply in_seq in I. split; [lia|]. assert (L : k < n) by lia.
    pose proof (step_lt (c_time tok) (increment v) k n IP L) as X. unfold at_step in X at 2. lra. }
  destruct (insert_all (c_time tok) (increment v) t e pre (seq 1 (n - 1)) _ tok post eq_refl CH TLE IP ST (Qeq_refl _) KS)
    as (c' & r' & EQ & SC & CH2 & WN & PL).
  destruct SC as (SD & SE & SF & SG).
  assert (PRE : chain t (pre ++ c' :: r') e) by exact CH2.
  destruct (chain_app pre (c' :: r') t e CH2) as (t1 & CH3 & CHP). cbn in CH3.
  assert (DC : c_data c' = true) by (rewrite <- SD; apply ST). rewrite DC in CH3. destruct CH3 as (TC & DN & CHR).
  assert (SC' : sounding c') by (apply SG; exact ST).
  assert (NP1 : forall x k, In x pre -> ~ place_of (c_time tok) (increment v) k x).
  { intros x k I ((DX & NZ) & TXX). destruct (chain_before _ _ _ CHP x I DX) as (A & B).
    assert (LE : (c_time tok <= at_step (c_time tok) (increment v) k)%Q).
    { destruct k as [|k]; [rewrite step_0; lra|]. pose proof (step_lt (c_time tok) (increment v) 0 (S k) IP ltac:(lia)) as X. rewrite step_0 in X. lra. }
    rewrite SE in *. apply NZ. lra. }
  assert (PC : place_of (c_time tok) (increment v) 0 c') by (split; [exact SC'|rewrite step_0, SE; reflexivity]).
  assert (PR : forall k, 1 <= k < n -> exists x, In x r' /\ place_of (c_time tok) (increment v) k x).
  { intros k K. destruct (PL k) as (x & I & SX & TXX); [apply in_seq; lia|]. apply in_app_or in I. destruct I as [I|[<-|I]].
    - destruct (NP1 x k I). split; assumption.
    - destruct PC as (_ & Z). assert (Y : (at_step (c_time tok) (increment v) 0 == at_step (c_time tok) (increment v) k)%Q) by (rewrite <- Z; exact TXX).
      apply step_inj in Y; [lia|exact IP].
    - exists x. split; [exact I|split; assumption]. }
  exists (pre ++ c' :: r').
  eexists. split.
  { unfold processFile.
    assert (NT : nth_error (pre ++ tok :: post) (length pre) = Some tok) by (rewrite nth_error_app2, Nat.sub_diag; [reflexivity|lia]).
    rewrite NT. unfold make_room. rewrite (FM tok eq_refl), (DM tok eq_refl), NC. unfold insert_lines. unfold at_step in EQ. rewrite EQ.
    assert (SK : skipn (length pre) (pre ++ c' :: r') = c' :: r') by (rewrite skipn_app, skipn_all, Nat.sub_diag; reflexivity).
    assert (FI : firstn (length pre) (pre ++ c' :: r') = pre) by (rewrite firstn_app, firstn_all, Nat.sub_diag, firstn_O, app_nil_r; reflexivity).
    rewrite SK, FI. unfold expandTremolo. rewrite (FM c' (eq_sym SF)), (DM c' (eq_sym SF)), NC.
    assert (VL : (v <? 8)%N = false) by (apply N.ltb_ge; exact V8). rewrite VL. cbv zeta. reflexivity. }
  split; [exact WN|]. split; [exact CH2|]. split.
  { intros k K. destruct k as [|k].
    - exists c'. split; [apply in_or_app; right; left; reflexivity|exact PC].
    - destruct (PR (S k)) as (x & I & PX); [lia|]. exists x. split; [apply in_or_app; right; right; exact I|exact PX]. }
  pose proof (texts_shape a r b1 v b2 rest (qlt (1 # 2) d) NA R N1 N2 OR) as SH. cbv zeta in SH. rewrite <- SF, TX.
  pose proof (texts_keeps v (qlt (1 # 2) d) (marked_note a r b1 v b2 rest)) as KE. cbv zeta in KE.
  set (T := tremolo_texts v (qlt (1 # 2) d) (marked_note a r b1 v b2 rest)) in *. destruct SH as (H1 & H2 & H3). destruct KE as (K1 & K2 & K3).
  apply Forall2_app.
  { assert (G : forall x, In x pre -> forall k, k < n -> ~ place_of (c_time tok) (increment v) k x) by (intros; apply NP1; assumption).
    clear - G. induction pre as [|x p IH]; constructor; [right; split; [apply G; left; reflexivity|reflexivity]|].
    apply IH. intros y I. apply G. right. exact I. }
  constructor.
  { left. destruct (shape_duration v _ V0 H1) as (q & Q1 & Q2). exists 0, q. split; [lia|]. split; [exact PC|]. split; [reflexivity|]. split; [exact Q1|]. split; [exact Q2|exact K1]. }
  assert (FS := fill_spec (c_time tok) (increment v) n (fun k => if Nat.eqb k n then t_terminal T else t_base T) IP r' _ e 1 CHR ltac:(lia) PR (c_time c' + increment v)%Q).
  assert (S1 : (c_time c' + increment v == at_step (c_time tok) (increment v) 1)%Q) by (rewrite <- step_next, step_0, SE; reflexivity).
  specialize (FS S1).
  assert (N0 : forall x, In x r' -> ~ place_of (c_time tok) (increment v) 0 x).
  { intros x I ((DX & _) & TXX). pose proof (chain_times _ _ _ CHR x I DX) as Y. rewrite step_0 in TXX. rewrite SE in TXX.
    destruct SC' as (_ & NZ). apply NZ. lra. }
  revert FS N0. generalize (fill n (increment v) (fun k => if Nat.eqb k n then t_terminal T else t_base T) (c_time c' + increment v)%Q 1 r').
  intros o FS. clear - FS H1 H2 H3 V0 K1 K2 K3. induction FS as [|x y l o W F IH]; intros N0; constructor.
  - destruct W as [(k & K & PX & ->)|(NK & ->)].
    + left. cbv beta. assert (SHX : shape (show_N v) (if Nat.eqb (S k) n then t_terminal T else t_base T)) by (destruct (Nat.eqb (S k) n); assumption).
      destruct (shape_duration v _ V0 SHX) as (q & Q1 & Q2). exists k, q. split; [lia|]. split; [exact PX|]. split; [reflexivity|]. split; [exact Q1|]. split; [exact Q2|].
      cbn [set_text c_text]. destruct (Nat.eqb (S k) n); assumption.
    + right. split; [|reflexivity]. intros k K PX. destruct k as [|k]; [apply (N0 x); [left; reflexivity|exact PX]|]. apply (NK (S k)); [lia|exact PX].
  - apply IH. intros z I. apply N0. right. exact I.
Qed.
