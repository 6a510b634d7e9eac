(** Proofs about the token model: caches. *)
From Verif Require Import PyStr PyStrProofs HashModel LayoutModel BarModel RecipModel TokenModel.
From Coq Require Import Lia QArith.
Local Close Scope Q_scope.

(** The text of the exclusive interpretation a token is under. *)
Definition exclusive_of (e : env) (owner : option nat) (track : option Z) : str :=
  match owner with
  | None => []
  | Some o => match trackStart e o track with Some s => s | None => [] end
  end.
Definition true_dtype (e : env) (t : tok) : str := exclusive_of e (k_owner t) (k_track t).

Definition text_is_data (s : str) : bool :=
  negb (starts_with (S_ "*") s) && negb (starts_with (S_ "!") s) && negb (starts_with (S_ "=") s).

(** A note name is a letter from a to g in either case; a rest has an r. *)
Definition names_pitch (s : str) : bool := existsb (fun c => char_in c (S_ "abcdefgABCDEFG")) s.

(** What each question means for a text [s] under the exclusive interpretation [d]. *)
Definition answer (e : env) (s d : str) (p : prop) : bool :=
  match p with
  | isInterpretation => starts_with (S_ "*") s
  | isComment => starts_with (S_ "!") s
  | isGlobalComment => starts_with (S_ "!!") s
  | isBarline => starts_with (S_ "=") s
  | isNull => str_eqb s (S_ ".") || str_eqb s (S_ "*") || str_eqb s (S_ "!")
  | isLabel => starts_with (S_ "*>") s && negb (char_in "["%char s)
  | isChord => char_in " "%char s
  | isExclusive => starts_with (S_ "**") s
  | isSplit => str_eqb s (S_ "*^")
  | isMerge => str_eqb s (S_ "*v")
  | isExchange => str_eqb s (S_ "*x")
  | isTerminate => str_eqb s (S_ "*-")
  | isAdd => str_eqb s (S_ "*+")
  | isRecipOnly => recip_only s
  | hasBeam => char_in "L"%char s || char_in "J"%char s || char_in "K"%char s || char_in "k"%char s
  | hasFermata => char_in ";"%char s
  | isStaffInterpretation => starts_with (S_ "*staff") s
  | isPart => starts_with (S_ "*part") s
  | isGroup => starts_with (S_ "*group") s
  | isData => text_is_data s
  | isLocalComment => starts_with (S_ "!") s && negb (starts_with (S_ "!!") s)
  | isNonNullData => text_is_data s && negb (str_eqb s (S_ "."))
  | isNullData => str_eqb s (S_ ".")
  | isManipulator => str_eqb s (S_ "*^") || str_eqb s (S_ "*v") || str_eqb s (S_ "*x")
                     || str_eqb s (S_ "*+") || str_eqb s (S_ "*-") || starts_with (S_ "**") s
  | isKern => str_eqb d (S_ "**kern")
  | isRecip => str_eqb d (S_ "**recip")
  | isMens => str_eqb d (S_ "**mens")
  | hasRhythm => str_eqb d (S_ "**kern") || str_eqb d (S_ "**recip") || str_eqb d (S_ "**mens")
  | isStaffDataType => str_eqb d (S_ "**kern") || str_eqb d (S_ "**mens")
  | isRest => text_is_data s && (str_eqb d (S_ "**kern") || str_eqb d (S_ "**mens"))
              && char_in "r"%char
                   (if str_eqb s (S_ ".") then match nullText e with Some r => r | None => s end else s)
  | isNote => text_is_data s && negb (str_eqb s (S_ "."))
              && (if str_eqb d (S_ "**kern") then negb (char_in "r"%char s) && names_pitch s
                  else str_eqb d (S_ "**mens") && names_pitch s)
  end.

Lemma str_eqb_sym a b : str_eqb a b = str_eqb b a.
Proof.
  destruct (str_eqb a b) eqn:E.
  - apply str_eqb_eq in E. subst. symmetry. now apply str_eqb_eq.
  - destruct (str_eqb b a) eqn:E2; auto. apply str_eqb_eq in E2. subst.
    assert (str_eqb a a = true) by now apply str_eqb_eq. congruence.
Qed.

Definition same_core (t t' : tok) : Prop :=
  k_text t' = k_text t /\ k_track t' = k_track t /\ k_owner t' = k_owner t
  /\ k_subs t' = k_subs t /\ k_subsgen t' = k_subsgen t
  /\ k_analyzed t' = k_analyzed t /\ k_dur t' = k_dur t.

Definition grows (t t' : tok) : Prop :=
  (k_tflag t = true -> k_tflag t' = true) /\ (k_dflag t = true -> k_dflag t' = true)
  /\ (forall p, k_cache t p <> None -> k_cache t' p <> None).

Record Inv (e : env) (t : tok) : Prop := {
  inv_val : forall p b, k_cache t p = Some b -> b = answer e (k_text t) (true_dtype e t) p;
  inv_tf : forall p, text_prop p = true -> k_cache t p <> None -> k_tflag t = true;
  inv_df : forall p, dtype_prop p = true -> p <> isNote -> k_cache t p <> None -> k_dflag t = true;
  inv_note : k_cache t isNote <> None -> text_is_data (k_text t) = true ->
             str_eqb (k_text t) (S_ ".") = false -> k_dflag t = true;
  inv_dt : forall s, k_dtype t = Some s -> s = true_dtype e t }.

Lemma same_core_refl t : same_core t t. Proof. unfold same_core; tauto. Qed.
Lemma same_core_trans a b c : same_core a b -> same_core b c -> same_core a c.
Proof. unfold same_core. intros (->&->&->&->&->&->&->) (->&->&->&->&->&->&->). tauto. Qed.
Lemma grows_refl t : grows t t. Proof. unfold grows; tauto. Qed.
Lemma grows_trans a b c : grows a b -> grows b c -> grows a c.
Proof. unfold grows. intros (A1&A2&A3) (B1&B2&B3). repeat split; auto. Qed.
Lemma core_dtype e t t' : same_core t t' -> true_dtype e t' = true_dtype e t.
Proof. unfold same_core, true_dtype. intros (_&->&->&_). reflexivity. Qed.

(** A question [q] is answered by [f] of the text and the exclusive interpretation. *)
Definition good (e : env) (f : str -> str -> bool) (q : tok -> bool * tok) : Prop :=
  forall t, Inv e t ->
    fst (q t) = f (k_text t) (true_dtype e t) /\ Inv e (snd (q t))
    /\ same_core t (snd (q t)) /\ grows t (snd (q t)).

Lemma good_ext e f g q : (forall s d, f s d = g s d) -> good e f q -> good e g q.
Proof. intros E G t I. destruct (G t I) as (A & B & C). rewrite A, E. auto. Qed.

Lemma good_text e f : good e (fun s _ => f s) (on_text f).
Proof.
  intros t I. cbn. repeat split; try apply I; auto using same_core_refl.
Qed.

Lemma inv_addr e t s : Inv e t -> s = true_dtype e t ->
  Inv e (with_addr (k_track t) (k_owner t) (Some s) t).
Proof.
  intros I E. destruct I. constructor; cbn; auto.
  intros s' H. inversion H. subst. reflexivity.
Qed.

Lemma good_dtype e f : good e (fun _ d => f d) (on_dtype e f).
Proof.
  intros t I. unfold on_dtype, data_type.
  destruct (k_dtype t) eqn:D.
  - cbn. rewrite (inv_dt _ _ I _ D). auto using same_core_refl, grows_refl.
  - unfold true_dtype at 1, exclusive_of. destruct (k_owner t) as [o|] eqn:O.
    + destruct (trackStart e o (k_track t)) eqn:T; cbn.
      * split; [reflexivity|]. rewrite <- O. split.
        -- apply inv_addr; auto. unfold true_dtype, exclusive_of. now rewrite O, T.
        -- split. { unfold same_core; cbn; tauto. } unfold grows; cbn; tauto.
      * auto using same_core_refl, grows_refl.
    + cbn. auto using same_core_refl, grows_refl.
Qed.

Lemma good_and e f g a b : good e f a -> good e g b -> good e (fun s d => f s d && g s d) (andq a b).
Proof.
  intros A B t I. unfold andq. destruct (A t I) as (V & I1 & C1 & G1).
  destruct (a t) as [x t1] eqn:E. cbn in *. subst x.
  destruct (f (k_text t) (true_dtype e t)) eqn:F; cbn.
  - destruct (B t1 I1) as (V2 & I2 & C2 & G2). rewrite V2.
    rewrite (core_dtype e _ _ C1). destruct C1 as (T1&C1). rewrite T1.
    split; [reflexivity|]. split; [assumption|]. split.
    + eapply same_core_trans; [|exact C2]. unfold same_core; tauto.
    + eapply grows_trans; eauto.
  - auto.
Qed.

Lemma good_not e f a : good e f a -> good e (fun s d => negb (f s d)) (notq a).
Proof.
  intros A t I. unfold notq. destruct (A t I) as (V & R).
  destruct (a t) as [x t1] eqn:E. cbn in *. subst x. auto.
Qed.

Lemma good_or e f g a b : good e f a -> good e g b -> good e (fun s d => f s d || g s d) (orq a b).
Proof.
  intros A B t I. unfold orq. destruct (A t I) as (V & I1 & C1 & G1).
  destruct (a t) as [x t1] eqn:E. cbn in *. subst x.
  destruct (f (k_text t) (true_dtype e t)) eqn:F; cbn.
  - auto.
  - destruct (B t1 I1) as (V2 & I2 & C2 & G2). rewrite V2.
    rewrite (core_dtype e _ _ C1). destruct C1 as (T1&C1). rewrite T1.
    split; [reflexivity|]. split; [assumption|]. split.
    + eapply same_core_trans; [|exact C2]. unfold same_core; tauto.
    + eapply grows_trans; eauto.
Qed.

Lemma good_cached e p tf df compute :
  good e (fun s d => answer e s d p) compute ->
  (text_prop p = true -> tf = true \/ forall t, Inv e t -> k_tflag (snd (compute t)) = true) ->
  (dtype_prop p = true -> p <> isNote -> df = true) ->
  (p = isNote -> forall t, Inv e t -> text_is_data (k_text t) = true ->
                  str_eqb (k_text t) (S_ ".") = false -> k_dflag (snd (compute t)) = true) ->
  good e (fun s d => answer e s d p) (cached p tf df compute).
Proof.
  intros G HT HD HN t I. unfold cached. destruct (k_cache t p) as [b|] eqn:C.
  - cbn. rewrite (inv_val _ _ I _ _ C). auto using same_core_refl, grows_refl.
  - destruct (G t I) as (V & I1 & C1 & G1).
    specialize (HN) as HN'. destruct (compute t) as [b t1] eqn:E. cbn in V, I1, C1, G1.
    set (t2 := with_cache (fun q => if prop_eq_dec q p then Some b else k_cache t1 q) t1).
    assert (HT1 : text_prop p = true -> tf = true \/ k_tflag t1 = true).
    { intro P. destruct (HT P) as [|H]; auto. right. specialize (H t I). now rewrite E in H. }
    assert (HN1 : p = isNote -> text_is_data (k_text t) = true ->
                  str_eqb (k_text t) (S_ ".") = false -> k_dflag t1 = true).
    { intros P X Y. specialize (HN P t I X Y). now rewrite E in HN. }
    clear HT HN HN' G E C.
    destruct I1 as [iv itf idf inn idt].
    destruct C1 as (T1&T2&T3&T4&T5&T6&T7). destruct G1 as (G1&G2&G3).
    assert (DT : true_dtype e t1 = true_dtype e t) by (unfold true_dtype; now rewrite T2, T3).
    split; [|split; [|split]].
    + destruct tf, df; exact V.
    + assert (I2 : Inv e (if df then with_dflag true (if tf then with_tflag true t2 else t2)
                          else if tf then with_tflag true t2 else t2)).
      { constructor.
        - intros q b' H.
          assert (H' : (if prop_eq_dec q p then Some b else k_cache t1 q) = Some b')
            by (destruct tf, df; exact H). clear H.
          replace (k_text _) with (k_text t) by (destruct tf, df; cbn; congruence).
          replace (true_dtype _ _) with (true_dtype e t)
            by (destruct tf, df; unfold true_dtype; cbn; now rewrite T2, T3).
          destruct (prop_eq_dec q p) as [->|N].
          + injection H' as H'. rewrite <- H'. exact V.
          + rewrite (iv _ _ H'). now rewrite DT, T1.
        - intros q P H.
          assert (H' : (if prop_eq_dec q p then Some b else k_cache t1 q) <> None)
            by (destruct tf, df; exact H). clear H.
          destruct (prop_eq_dec q p) as [->|N].
          + destruct (HT1 P) as [->|X]; [destruct df; reflexivity|destruct tf, df; cbn; auto].
          + specialize (itf q P H'). destruct tf, df; cbn; auto.
        - intros q P NN H.
          assert (H' : (if prop_eq_dec q p then Some b else k_cache t1 q) <> None)
            by (destruct tf, df; exact H). clear H.
          destruct (prop_eq_dec q p) as [->|N].
          + rewrite (HD P NN). reflexivity.
          + specialize (idf q P NN H'). destruct tf, df; cbn; auto.
        - intros H X Y.
          assert (H' : (if prop_eq_dec isNote p then Some b else k_cache t1 isNote) <> None)
            by (destruct tf, df; exact H). clear H.
          assert (X' : text_is_data (k_text t) = true) by (rewrite <- T1; destruct tf, df; exact X).
          assert (Y' : str_eqb (k_text t) (S_ ".") = false) by (rewrite <- T1; destruct tf, df; exact Y).
          assert (D1 : k_dflag t1 = true).
          { destruct (prop_eq_dec isNote p) as [<-|N]; [auto|]. apply inn; auto; now rewrite T1. }
          destruct tf, df; cbn; auto.
        - intros s H. assert (H' : k_dtype t1 = Some s) by (destruct tf, df; exact H).
          rewrite (idt _ H'). destruct tf, df; reflexivity. }
      exact I2.
    + unfold same_core. destruct tf, df; cbn; tauto.
    + unfold grows. repeat split.
      * intro H. specialize (G1 H). destruct tf, df; cbn; auto.
      * intro H. specialize (G2 H). destruct tf, df; cbn; auto.
      * intros q H.
        assert ((if prop_eq_dec q p then Some b else k_cache t1 q) <> None).
        { destruct (prop_eq_dec q p); [discriminate|auto]. }
        destruct tf, df; cbn; auto.
Qed.

(** The same with the conditions discharged by computation. *)
Lemma good_cached_simple e p tf df f compute :
  good e f compute -> (forall s d, f s d = answer e s d p) ->
  (text_prop p = true -> tf = true) -> (dtype_prop p = true -> df = true) -> p <> isNote ->
  good e (fun s d => answer e s d p) (cached p tf df compute).
Proof.
  intros G E H1 H2 N. apply good_cached; auto.
  eapply good_ext; eauto.
Qed.

Ltac simple_prop :=
  eapply good_cached_simple; [apply good_text | intros; cbn; auto using str_eqb_sym | ..];
  cbn; congruence.

Lemma good_Interpretation e : good e (fun s d => answer e s d isInterpretation) qInterpretation.
Proof. simple_prop. Qed.
Lemma good_Comment e : good e (fun s d => answer e s d isComment) qComment.
Proof. simple_prop. Qed.
Lemma good_GlobalComment e : good e (fun s d => answer e s d isGlobalComment) qGlobalComment.
Proof. simple_prop. Qed.
Lemma good_Barline e : good e (fun s d => answer e s d isBarline) qBarline.
Proof. simple_prop. Qed.
Lemma good_Null e : good e (fun s d => answer e s d isNull) qNull.
Proof.
  eapply good_cached_simple; [apply good_text|..]; try (cbn; congruence).
  intros s d. unfold text_is_null, null_texts, answer. cbn [existsb].
  now rewrite orb_false_r, orb_assoc.
Qed.
Lemma good_Label e : good e (fun s d => answer e s d isLabel) qLabel.
Proof. simple_prop. Qed.
Lemma good_Chord e : good e (fun s d => answer e s d isChord) qChord.
Proof. simple_prop. Qed.
Lemma good_Exclusive e : good e (fun s d => answer e s d isExclusive) qExclusive.
Proof. simple_prop. Qed.
Lemma good_Split e : good e (fun s d => answer e s d isSplit) qSplit.
Proof. eapply good_cached_simple; [apply good_text | intros; apply str_eqb_sym | ..]; cbn; congruence. Qed.
Lemma good_Merge e : good e (fun s d => answer e s d isMerge) qMerge.
Proof. eapply good_cached_simple; [apply good_text | intros; apply str_eqb_sym | ..]; cbn; congruence. Qed.
Lemma good_Exchange e : good e (fun s d => answer e s d isExchange) qExchange.
Proof. eapply good_cached_simple; [apply good_text | intros; apply str_eqb_sym | ..]; cbn; congruence. Qed.
Lemma good_Terminate e : good e (fun s d => answer e s d isTerminate) qTerminate.
Proof. eapply good_cached_simple; [apply good_text | intros; apply str_eqb_sym | ..]; cbn; congruence. Qed.
Lemma good_Add e : good e (fun s d => answer e s d isAdd) qAdd.
Proof. eapply good_cached_simple; [apply good_text | intros; apply str_eqb_sym | ..]; cbn; congruence. Qed.
Lemma good_RecipOnly e : good e (fun s d => answer e s d isRecipOnly) qRecipOnly.
Proof. simple_prop. Qed.
Lemma good_Beam e : good e (fun s d => answer e s d hasBeam) qBeam.
Proof. simple_prop. Qed.
Lemma good_Fermata e : good e (fun s d => answer e s d hasFermata) qFermata.
Proof. simple_prop. Qed.
Lemma good_StaffInterpretation e :
  good e (fun s d => answer e s d isStaffInterpretation) qStaffInterpretation.
Proof. simple_prop. Qed.
Lemma good_Part e : good e (fun s d => answer e s d isPart) qPart.
Proof. simple_prop. Qed.
Lemma good_Group e : good e (fun s d => answer e s d isGroup) qGroup.
Proof. simple_prop. Qed.

Lemma good_Data e : good e (fun s d => answer e s d isData) qData.
Proof.
  eapply good_cached_simple; try (cbn; congruence).
  - apply good_and; [apply good_not, good_Interpretation|].
    apply good_and; apply good_not; [apply good_Comment|apply good_Barline].
  - intros s d. cbn [answer]. unfold text_is_data. now rewrite andb_assoc.
Qed.
Lemma good_LocalComment e : good e (fun s d => answer e s d isLocalComment) qLocalComment.
Proof.
  eapply good_cached_simple; try (cbn; congruence).
  - apply good_and; [apply good_Comment|]. apply good_not, good_GlobalComment.
  - reflexivity.
Qed.

(** Among data tokens the only null is the dot. *)
Lemma data_null s : text_is_data s = true ->
  str_eqb s (S_ ".") || str_eqb s (S_ "*") || str_eqb s (S_ "!") = str_eqb s (S_ ".").
Proof.
  intro D. destruct (str_eqb s (S_ "*")) eqn:A.
  { apply str_eqb_eq in A. subst. discriminate D. }
  destruct (str_eqb s (S_ "!")) eqn:B.
  { apply str_eqb_eq in B. subst. discriminate D. }
  now rewrite !orb_false_r.
Qed.

Lemma good_NonNullData e : good e (fun s d => answer e s d isNonNullData) qNonNullData.
Proof.
  eapply good_cached_simple; try (cbn; congruence).
  - apply good_and; [apply good_Data|]. apply good_not, good_Null.
  - intros s d. cbn [answer]. destruct (text_is_data s) eqn:D; auto. cbn [andb].
    now rewrite data_null.
Qed.
Lemma good_NullData e : good e (fun s d => answer e s d isNullData) qNullData.
Proof.
  eapply good_cached_simple; try (cbn; congruence).
  - apply good_and; [apply good_Data|apply good_Null].
  - intros s d. cbn [answer]. destruct (text_is_data s) eqn:D; cbn [andb].
    + now apply data_null.
    + destruct (str_eqb s (S_ ".")) eqn:A; auto. apply str_eqb_eq in A. subst. discriminate D.
Qed.
Lemma good_Manipulator e : good e (fun s d => answer e s d isManipulator) qManipulator.
Proof.
  eapply good_cached_simple; try (cbn; congruence).
  - apply good_or; [apply good_Split|]. apply good_or; [apply good_Merge|].
    apply good_or; [apply good_Exchange|]. apply good_or; [apply good_Add|].
    apply good_or; [apply good_Terminate|apply good_Exclusive].
  - intros s d. cbn [answer]. now rewrite !orb_assoc.
Qed.

Lemma good_Kern e : good e (fun s d => answer e s d isKern) (qKern e).
Proof. eapply good_cached_simple; [apply good_dtype | intros; apply str_eqb_sym | ..]; cbn; congruence. Qed.
Lemma good_Recip e : good e (fun s d => answer e s d isRecip) (qRecip e).
Proof. eapply good_cached_simple; [apply good_dtype | intros; apply str_eqb_sym | ..]; cbn; congruence. Qed.
Lemma good_Mens e : good e (fun s d => answer e s d isMens) (qMens e).
Proof. eapply good_cached_simple; [apply good_dtype | intros; apply str_eqb_sym | ..]; cbn; congruence. Qed.
Lemma good_Rhythm e : good e (fun s d => answer e s d hasRhythm) (qRhythm e).
Proof.
  eapply good_cached_simple; [apply good_dtype|..]; try (cbn; congruence).
  intros s d. unfold rhythm_types, answer. cbn [existsb]. now rewrite orb_false_r, orb_assoc.
Qed.
Lemma good_StaffDataType e : good e (fun s d => answer e s d isStaffDataType) (qStaffDataType e).
Proof.
  eapply good_cached_simple; try (cbn; congruence).
  - apply good_or; [apply good_Kern|apply good_Mens].
  - reflexivity.
Qed.

Lemma good_step e f q t : good e f q -> Inv e t ->
  exists t', q t = (f (k_text t) (true_dtype e t), t') /\ Inv e t' /\ same_core t t' /\ grows t t'.
Proof.
  intros G I. destruct (G t I) as (V & R). destruct (q t) as [b t'] eqn:E. cbn in *.
  exists t'. subst b. auto.
Qed.

Lemma cached_after p tf df compute t :
  (forall t', k_cache (snd (compute t')) p = k_cache (snd (compute t')) p) ->
  k_cache (snd (cached p tf df compute t)) p <> None.
Proof.
  intros _. unfold cached. destruct (k_cache t p) eqn:C; cbn.
  - rewrite C. discriminate.
  - destruct (compute t) as [b t1]. destruct tf, df; cbn;
      destruct (prop_eq_dec p p); congruence.
Qed.

Ltac use_good lem :=
  match goal with
  | I : Inv ?e ?t |- context [?q ?t] =>
      let t' := fresh "t" in let E := fresh "E" in let I' := fresh "I" in
      let C' := fresh "C" in let G' := fresh "G" in
      destruct (good_step e _ q t lem I) as (t' & E & I' & C' & G'); rewrite E
  end.

Lemma good_Rest e : good e (fun s d => answer e s d isRest) (qRest e).
Proof.
  eapply good_cached_simple; try (cbn; congruence).
  2: { intros s d. reflexivity. }
  intros t I.
  use_good (good_Null e). use_good (good_Data e).
  destruct C as (T1&T2&T3&TR). destruct C0 as (U1&U2&U3&UR).
  assert (D1 : true_dtype e t0 = true_dtype e t) by (unfold true_dtype; now rewrite T2, T3).
  assert (X1 : same_core t t1).
  { unfold same_core. rewrite U1, U2, U3. intuition congruence. }
  assert (X2 : grows t t1) by eauto using grows_trans.
  rewrite T1. cbn [answer].
  destruct (text_is_data (k_text t)) eqn:D.
  - use_good (good_Kern e).
    assert (D2 : true_dtype e t1 = true_dtype e t) by (now apply core_dtype).
    assert (X3 : same_core t t2) by eauto using same_core_trans.
    assert (X4 : grows t t2) by eauto using grows_trans.
    cbn [answer]. rewrite D2.
    rewrite data_null by assumption.
    destruct (str_eqb (true_dtype e t) (S_ "**kern")) eqn:K.
    + cbn [fst snd orb andb]. auto.
    + use_good (good_Mens e).
      assert (D3 : true_dtype e t2 = true_dtype e t) by (now apply core_dtype).
      cbn [answer]. rewrite D3.
      assert (X5 : same_core t t3) by eauto using same_core_trans.
      assert (X6 : grows t t3) by eauto using grows_trans.
      destruct (str_eqb (true_dtype e t) (S_ "**mens")) eqn:M; cbn [fst snd orb andb]; auto.
  - cbn [fst snd andb]. auto.
Qed.

Lemma kern_note_text s : isKernNote s = negb (char_in "r"%char s) && names_pitch s.
Proof. reflexivity. Qed.
Lemma mens_note_text s : isMensNote s = names_pitch s.
Proof.
  unfold isMensNote, names_pitch. induction s as [|c s IH]; [reflexivity|]. cbn [existsb].
  rewrite IH. f_equal. destruct c as [[] [] [] [] [] [] [] []]; reflexivity.
Qed.

Lemma good_Note_compute e : good e (fun s d => answer e s d isNote)
  (fun t => let (skip, t1) := orq (notq qData) qNull t in
     if skip then (false, t1)
     else
       let (kern, t2) := qKern e t1 in
       if kern then (isKernNote (k_text t2), t2)
       else let (mens, t3) := qMens e t2 in
            if mens then (isMensNote (k_text t3), t3) else (false, t3)).
Proof.
  intros t I.
  use_good (good_or e _ _ _ _ (good_not e _ _ (good_Data e)) (good_Null e)).
  cbn [answer]. destruct (text_is_data (k_text t)) eqn:D; cbn [negb orb].
  2: { cbn [fst snd andb]. auto. }
  rewrite data_null by assumption. destruct (str_eqb (k_text t) (S_ ".")) eqn:N; cbn [negb andb].
  { cbn [fst snd]. auto. }
  use_good (good_Kern e).
  assert (D2 : true_dtype e t0 = true_dtype e t) by (now apply core_dtype).
  assert (X3 : same_core t t1) by eauto using same_core_trans.
  assert (X4 : grows t t1) by eauto using grows_trans.
  cbn [answer]. rewrite D2. destruct (str_eqb (true_dtype e t) (S_ "**kern")) eqn:K.
  { assert (T : k_text t1 = k_text t) by apply X3. cbn [fst snd]. rewrite T, kern_note_text. auto. }
  use_good (good_Mens e).
  assert (D3 : true_dtype e t1 = true_dtype e t) by (now apply core_dtype).
  cbn [answer]. rewrite D3.
  assert (X5 : same_core t t2) by eauto using same_core_trans.
  assert (X6 : grows t t2) by eauto using grows_trans.
  assert (T : k_text t2 = k_text t) by apply X5.
  destruct (str_eqb (true_dtype e t) (S_ "**mens")) eqn:M; cbn [fst snd andb]; rewrite ?T, ?mens_note_text; auto.
Qed.

Lemma good_Note e : good e (fun s d => answer e s d isNote) (qNote e).
Proof.
  apply good_cached.
  - apply good_Note_compute.
  - intros _. right. intros t I. unfold orq, notq.
    assert (A : k_cache (snd (qData t)) isData <> None) by (apply cached_after; auto).
    destruct (good_step e _ _ t (good_Data e) I) as (t1 & E & I1 & C1 & G1). rewrite E in *.
    cbn [fst snd] in A.
    assert (F : k_tflag t1 = true) by (eapply inv_tf; eauto; reflexivity).
    cbn [answer]. destruct (text_is_data (k_text t)); cbn [negb]; [|exact F].
    destruct (good_step e _ _ t1 (good_Null e) I1) as (t2 & E2 & I2 & C2 & G2). rewrite E2.
    assert (F2 : k_tflag t2 = true) by (apply G2; auto).
    destruct (answer e (k_text t1) (true_dtype e t1) isNull); [exact F2|].
    destruct (good_step e _ _ t2 (good_Kern e) I2) as (t3 & E3 & I3 & C3 & G3). rewrite E3.
    assert (F3 : k_tflag t3 = true) by (apply G3; auto).
    destruct (answer e (k_text t2) (true_dtype e t2) isKern); [exact F3|].
    destruct (good_step e _ _ t3 (good_Mens e) I3) as (t4 & E4 & I4 & C4 & G4). rewrite E4.
    assert (F4 : k_tflag t4 = true) by (apply G4; auto).
    destruct (answer e (k_text t3) (true_dtype e t3) isMens); exact F4.
  - intros _ N. congruence.
  - intros _ t I D N.
    destruct (good_step e _ _ t (good_or e _ _ _ _ (good_not e _ _ (good_Data e)) (good_Null e)) I)
      as (t1 & E & I1 & C1 & G1). rewrite E. cbn [answer]. rewrite D, data_null, N by assumption.
    cbn [negb orb].
    assert (A : k_cache (snd (qKern e t1)) isKern <> None) by (apply cached_after; auto).
    destruct (good_step e _ _ t1 (good_Kern e) I1) as (t2 & E2 & I2 & C2 & G2). rewrite E2 in *.
    cbn [fst snd] in A.
    assert (F : k_dflag t2 = true) by (eapply (inv_df e t2 I2 isKern); eauto; discriminate).
    destruct (answer e (k_text t1) (true_dtype e t1) isKern); [exact F|].
    destruct (good_step e _ _ t2 (good_Mens e) I2) as (t4 & E4 & I4 & C4 & G4). rewrite E4.
    assert (F4 : k_dflag t4 = true) by (apply G4; auto).
    destruct (answer e (k_text t2) (true_dtype e t2) isMens); exact F4.
Qed.

Lemma good_query e p : good e (fun s d => answer e s d p) (query e p).
Proof.
  destruct p; cbn [query];
    auto using good_Interpretation, good_Comment, good_GlobalComment, good_Barline, good_Null,
    good_Label, good_Chord, good_Exclusive, good_Split, good_Merge, good_Exchange,
    good_Terminate, good_Add, good_RecipOnly, good_Beam, good_Fermata,
    good_StaffInterpretation, good_Part, good_Group, good_Data, good_LocalComment,
    good_NonNullData, good_NullData, good_Manipulator, good_Kern, good_Recip, good_Mens,
    good_Rhythm, good_StaffDataType, good_Rest, good_Note.
Qed.

(** ** Changes keep the invariant *)

Lemma answer_text_free e s s' d p : text_prop p = false -> answer e s d p = answer e s' d p.
Proof. destruct p; cbn; congruence || reflexivity. Qed.

Lemma answer_dtype_free e s d d' p : dtype_prop p = false -> answer e s d p = answer e s d' p.
Proof. destruct p; cbn; congruence || reflexivity. Qed.

Lemma note_free e s d d' :
  text_is_data s && negb (str_eqb s (S_ ".")) = false -> answer e s d isNote = answer e s d' isNote.
Proof. intro H. cbn [answer]. now rewrite H. Qed.

Lemma inv_new e s : Inv e (new_tok s).
Proof. constructor; cbn; congruence. Qed.

Definition clear_t (t : tok) (s : str) : tok :=
  mkTok s (k_track t) (k_owner t) (k_dtype t) (k_cache t) (k_tflag t) (k_dflag t)
        (k_subs t) false (k_analyzed t) (k_dur t).

Lemma set_text_core e s t : Inv e t ->
  Inv e (set_text s t) /\ k_text (set_text s t) = s /\ k_track (set_text s t) = k_track t
  /\ k_owner (set_text s t) = k_owner t /\ k_subsgen (set_text s t) = false
  /\ k_analyzed (set_text s t) = k_analyzed t /\ k_dur (set_text s t) = k_dur t
  /\ k_subs (set_text s t) = k_subs t.
Proof.
  intro I. unfold set_text, clearTokenText.
  cbn [k_tflag]. destruct (k_tflag t) eqn:F.
  - split; [|cbn; repeat split].
    destruct I as [iv itf idf inn idt].
    constructor; cbn; intros.
    + destruct (text_prop p) eqn:P; [discriminate|].
      rewrite (iv _ _ H). apply answer_text_free. assumption.
    + destruct (text_prop p); congruence.
    + destruct (text_prop p); [congruence|]. eauto.
    + congruence.
    + auto.
  - split; [|cbn; repeat split].
    destruct I as [iv itf idf inn idt].
    constructor; cbn; intros.
    + destruct (text_prop p) eqn:P.
      * assert (k_tflag t = true) by (apply (itf p P); congruence). congruence.
      * rewrite (iv _ _ H). apply answer_text_free. assumption.
    + assert (k_tflag t = true) by (apply (itf p H); congruence). congruence.
    + eauto.
    + assert (k_tflag t = true) by (apply (itf isNote); [reflexivity|assumption]). congruence.
    + auto.
Qed.

Lemma set_addr_inv e tr o t : Inv e t ->
  Inv e (clearDataType (with_addr tr o None t)).
Proof.
  intros [iv itf idf inn idt]. unfold clearDataType. cbn [k_dflag with_addr].
  destruct (k_dflag t) eqn:F.
  - constructor; cbn; intros.
    + destruct (dtype_prop p) eqn:P; [discriminate|]. rewrite (iv _ _ H).
      now apply answer_dtype_free.
    + destruct (dtype_prop p); [congruence|]. eauto.
    + rewrite H in *. congruence.
    + congruence.
    + congruence.
  - constructor; cbn; intros.
    + rewrite (iv _ _ H). destruct (dtype_prop p) eqn:P; [|now apply answer_dtype_free].
      destruct (prop_eq_dec p isNote) as [->|N].
      * apply note_free. destruct (text_is_data (k_text t)) eqn:D; auto.
        destruct (str_eqb (k_text t) (S_ ".")) eqn:E; auto.
        assert (X : k_cache t isNote <> None) by congruence.
        specialize (inn X eq_refl eq_refl). congruence.
      * assert (X : k_cache t p <> None) by congruence. specialize (idf p P N X). congruence.
    + eauto.
    + eauto.
    + eauto.
    + congruence.
Qed.

Lemma clearDataType_core t : same_core t (clearDataType t).
Proof. unfold clearDataType. destruct (k_dflag t); unfold same_core; cbn; tauto. Qed.

(** ** The history of a token, without its caches *)

Record abs := mkAbs { a_text : str; a_track : option Z; a_owner : option nat }.

Definition abs_step (a : abs) (o : op) : abs :=
  match o with
  | SetText s => mkAbs s (a_track a) (a_owner a)
  | SetTrack None => mkAbs (a_text a) None (a_owner a)
  | SetTrack (Some n) =>
      if (1000 <? n)%Z then a
      else mkAbs (a_text a) (if (n <? 0)%Z then None else Some n) (a_owner a)
  | SetOwner l => mkAbs (a_text a) (a_track a) l
  | ReplaceSubtoken i s =>
      let l := split_char " "%char (a_text a) in
      if (0 <=? i)%Z && (i <? Z.of_nat (length l))%Z
      then mkAbs (join (S_ " ") (firstn (Z.to_nat i) l ++ s :: skipn (S (Z.to_nat i)) l))
                 (a_track a) (a_owner a)
      else a
  | CopyStructure tr => mkAbs (a_text a) tr (a_owner a)
  | _ => a
  end.

Definition abs_history (s : str) (ops : list op) : abs := fold_left abs_step ops (mkAbs s None None).

(** No replacement subtoken holds a space, and copyStructure is not used. *)
Definition tame (o : op) : bool :=
  match o with
  | ReplaceSubtoken _ s => negb (char_in " "%char s)
  | CopyStructure _ => false
  | _ => true
  end.

Definition abs_of (t : tok) : abs := mkAbs (k_text t) (k_track t) (k_owner t).

Definition subs_ok (t : tok) : Prop :=
  k_subsgen t = true -> k_subs t = split_char " "%char (k_text t).

Lemma core_abs t t' : same_core t t' -> abs_of t' = abs_of t.
Proof. unfold abs_of. intros (->&->&->&_). reflexivity. Qed.
Lemma core_subs t t' : same_core t t' -> subs_ok t -> subs_ok t'.
Proof. unfold subs_ok. intros (->&_&_&->&->&_). auto. Qed.

Lemma replace_nth_spec l i x : i < length l ->
  replace_nth l i x = firstn i l ++ x :: skipn (S i) l.
Proof.
  revert i. induction l as [|a l IH]; intros i L; cbn in L; [lia|].
  destruct i; cbn; [reflexivity|]. rewrite IH by lia. reflexivity.
Qed.

Lemma split_no_sep c s x : In x (split_char c s) -> char_in c x = false.
Proof.
  revert x. induction s as [|a s IH]; cbn; intros x H.
  - destruct H as [<-|[]]. reflexivity.
  - destruct (Ascii.eqb a c) eqn:E.
    + destruct H as [<-|H]; [reflexivity|auto].
    + destruct (split_char c s) as [|y l] eqn:SP.
      * destruct H as [<-|[]]. cbn. rewrite Ascii.eqb_sym, E. reflexivity.
      * destruct H as [<-|H].
        -- cbn. rewrite Ascii.eqb_sym, E. apply IH. now left.
        -- apply IH. now right.
Qed.

(** ** Durations *)

(** What a token's duration means: [-1] unless it is a non-null data token of a
    rhythmic spine. *)
Definition dur_answer (s d : str) : option Q :=
  if text_is_data s && negb (str_eqb s (S_ ".")) then
    if str_eqb d (S_ "**kern") || str_eqb d (S_ "**recip") then fst (recipToDuration [] s 4%Q)
    else if str_eqb d (S_ "**mens") then Some (mensToDuration s)
    else Some (-1)%Q
  else Some (-1)%Q.

Definition same_but_dur (t t' : tok) : Prop :=
  k_text t' = k_text t /\ k_track t' = k_track t /\ k_owner t' = k_owner t
  /\ k_subs t' = k_subs t /\ k_subsgen t' = k_subsgen t.

Lemma inv_dur e b q t : Inv e t -> Inv e (with_dur b q t).
Proof. intros [iv itf idf inn idt]. constructor; cbn; auto. Qed.

Lemma core_but t t' b q : same_core t t' -> same_but_dur t (with_dur b q t').
Proof. unfold same_core, same_but_dur. cbn. tauto. Qed.

Lemma analyze_spec e t : Inv e t ->
  exists t' q, analyzeDuration e t = with_dur true q t' /\ Inv e t' /\ same_core t t'
            /\ q = dur_answer (k_text t) (true_dtype e t).
Proof.
  intro I. unfold analyzeDuration, dur_answer.
  destruct (str_eqb (k_text t) (S_ ".")) eqn:N.
  { exists t, (Some (-1)%Q). rewrite andb_false_r. auto using same_core_refl. }
  use_good (good_Comment e). unfold text_is_data. cbn [answer].
  destruct (starts_with (S_ "!") (k_text t)) eqn:A.
  { exists t0, (Some (-1)%Q). rewrite andb_false_r. auto. }
  use_good (good_Interpretation e). assert (X0 : k_text t0 = k_text t) by apply C.
  cbn [answer]. rewrite X0.
  destruct (starts_with (S_ "*") (k_text t)) eqn:B.
  { exists t1, (Some (-1)%Q). cbn [negb andb]. eauto using same_core_trans. }
  use_good (good_Barline e). assert (W2 : same_core t t1) by eauto using same_core_trans.
  assert (X1 : k_text t1 = k_text t) by apply W2. cbn [answer]. rewrite X1.
  destruct (starts_with (S_ "=") (k_text t)) eqn:D.
  { exists t2, (Some (-1)%Q). cbn [negb andb]. eauto using same_core_trans. }
  use_good (good_Rhythm e). assert (W4 : same_core t t2) by eauto using same_core_trans.
  cbn [answer]. rewrite (core_dtype e _ _ W4). cbn [negb andb].
  set (d := true_dtype e t).
  destruct (str_eqb d (S_ "**kern")) eqn:K; cbn [orb].
  - use_good (good_NonNullData e). assert (W6 : same_core t t3) by eauto using same_core_trans.
    assert (X2 : k_text t3 = k_text t) by apply W6. cbn [answer]. rewrite X2, N.
    unfold text_is_data. rewrite A, B, D. cbn [negb andb].
    use_good (good_Kern e). assert (W8 : same_core t t4) by eauto using same_core_trans.
    cbn [answer]. rewrite (core_dtype e _ _ W8). fold d. rewrite K.
    assert (W9 : same_core t t5) by eauto using same_core_trans.
    assert (X3 : k_text t5 = k_text t) by apply W9. rewrite X3.
    exists t5, (fst (recipToDuration [] (k_text t) 4%Q)). auto.
  - destruct (str_eqb d (S_ "**recip")) eqn:R; cbn [orb].
    + use_good (good_NonNullData e). assert (W6 : same_core t t3) by eauto using same_core_trans.
      assert (X2 : k_text t3 = k_text t) by apply W6. cbn [answer]. rewrite X2, N.
      unfold text_is_data. rewrite A, B, D. cbn [negb andb].
      use_good (good_Kern e). assert (W8 : same_core t t4) by eauto using same_core_trans.
      cbn [answer]. rewrite (core_dtype e _ _ W8). fold d. rewrite K.
      use_good (good_Recip e). assert (W9 : same_core t t5) by eauto using same_core_trans.
      cbn [answer]. rewrite (core_dtype e _ _ W9). fold d. rewrite R.
      assert (W11 : same_core t t6) by eauto using same_core_trans.
      assert (X3 : k_text t6 = k_text t) by apply W11. rewrite X3.
      exists t6, (fst (recipToDuration [] (k_text t) 4%Q)). auto.
    + destruct (str_eqb d (S_ "**mens")) eqn:M.
      * use_good (good_NonNullData e). assert (W6 : same_core t t3) by eauto using same_core_trans.
        assert (X2 : k_text t3 = k_text t) by apply W6. cbn [answer]. rewrite X2, N.
        unfold text_is_data. rewrite A, B, D. cbn [negb andb].
        use_good (good_Kern e). assert (W8 : same_core t t4) by eauto using same_core_trans.
        cbn [answer]. rewrite (core_dtype e _ _ W8). fold d. rewrite K.
        use_good (good_Recip e). assert (W9 : same_core t t5) by eauto using same_core_trans.
        cbn [answer]. rewrite (core_dtype e _ _ W9). fold d. rewrite R.
        use_good (good_Mens e). assert (W11 : same_core t t6) by eauto using same_core_trans.
        cbn [answer]. rewrite (core_dtype e _ _ W11). fold d. rewrite M.
        assert (W13 : same_core t t7) by eauto using same_core_trans.
        assert (X3 : k_text t7 = k_text t) by apply W13. rewrite X3.
        exists t7, (Some (mensToDuration (k_text t))). auto.
      * exists t3, (Some (-1)%Q). eauto using same_core_trans.
Qed.

Lemma duration_spec e t : Inv e t ->
  Inv e (snd (duration e t)) /\ same_but_dur t (snd (duration e t))
  /\ k_analyzed (snd (duration e t)) = true
  /\ (k_analyzed t = false -> fst (duration e t) = dur_answer (k_text t) (true_dtype e t))
  /\ (k_analyzed t = true -> fst (duration e t) = k_dur t)
  /\ k_dur (snd (duration e t)) = fst (duration e t).
Proof.
  intro I. unfold duration. destruct (k_analyzed t) eqn:A; cbn [fst snd].
  - split; auto. split; [unfold same_but_dur; tauto|]. split; auto. split; [congruence|auto].
  - destruct (analyze_spec e t I) as (t' & q & -> & I' & C & ->).
    split; [now apply inv_dur|]. split; [now apply core_but|]. cbn. split; auto.
    split; auto. split; [congruence|auto].
Qed.

(** ** One step *)

Lemma subtokens_spec e t : Inv e t -> subs_ok t ->
  fst (subtokens t) = split_char " "%char (k_text t)
  /\ Inv e (snd (subtokens t)) /\ subs_ok (snd (subtokens t))
  /\ abs_of (snd (subtokens t)) = abs_of t
  /\ k_analyzed (snd (subtokens t)) = k_analyzed t /\ k_dur (snd (subtokens t)) = k_dur t.
Proof.
  intros I O. unfold subtokens. destruct (k_subsgen t) eqn:G; cbn [fst snd].
  - rewrite O by assumption. split; [reflexivity|]. split; [assumption|]. split; [assumption|]. auto.
  - split; auto. split.
    { destruct I as [iv itf idf inn idt]. constructor; cbn; auto. }
    split; [unfold subs_ok; cbn; auto|]. cbn. auto.
Qed.

Lemma in_firstn {A} n (l : list A) x : In x (firstn n l) -> In x l.
Proof. revert n; induction l; destruct n; cbn; intuition eauto. Qed.
Lemma in_skipn {A} n (l : list A) x : In x (skipn n l) -> In x l.
Proof. revert n; induction l; destruct n; cbn; intuition eauto. Qed.

Lemma step_spec e t o : Inv e t -> subs_ok t -> tame o = true ->
  Inv e (step e t o) /\ subs_ok (step e t o) /\ abs_of (step e t o) = abs_step (abs_of t) o.
Proof.
  intros I O T. destruct o as [s|z|l|i s|p| | |tr]; cbn [step abs_step].
  - destruct (set_text_core e s t I) as (I' & X1 & X2 & X3 & X4 & _). split; auto. split.
    + unfold subs_ok. congruence.
    + unfold abs_of. cbn. congruence.
  - destruct z as [n|].
    + cbn [set_track]. destruct (1000 <? n)%Z; auto.
      split; [now apply set_addr_inv|].
      set (t1 := with_addr _ _ _ t).
      assert (C := clearDataType_core t1). split.
      * eapply core_subs; eauto.
      * rewrite (core_abs _ _ C). reflexivity.
    + cbn [set_track]. split; [now apply set_addr_inv|].
      set (t1 := with_addr _ _ _ t).
      assert (C := clearDataType_core t1). split.
      * eapply core_subs; eauto.
      * rewrite (core_abs _ _ C). reflexivity.
  - unfold set_owner. split; [now apply set_addr_inv|].
    set (t1 := with_addr _ _ _ t).
    assert (C := clearDataType_core t1). split.
    * eapply core_subs; eauto.
    * rewrite (core_abs _ _ C). reflexivity.
  - unfold replaceSubtoken. destruct (subtokens_spec e t I O) as (V & I1 & O1 & A1 & _).
    destruct (subtokens t) as [l t1]. cbn [fst snd] in *. subst l.
    unfold abs_of at 2. cbn [a_text a_track a_owner].
    set (l := split_char " "%char (k_text t)).
    destruct ((i <? 0)%Z || (Z.of_nat (length l) <=? i)%Z) eqn:B.
    + replace ((0 <=? i)%Z && (i <? Z.of_nat (length l))%Z) with false; auto.
      symmetry. apply orb_true_iff in B. apply andb_false_iff.
      rewrite Z.leb_gt, Z.ltb_ge. rewrite Z.ltb_lt, Z.leb_le in B. tauto.
    + apply orb_false_iff in B as [B1 B2]. apply Z.ltb_ge in B1. apply Z.leb_gt in B2.
      replace ((0 <=? i)%Z && (i <? Z.of_nat (length l))%Z) with true
        by (symmetry; apply andb_true_iff; rewrite Z.leb_le, Z.ltb_lt; lia).
      rewrite replace_nth_spec by lia.
      set (l' := firstn (Z.to_nat i) l ++ s :: skipn (S (Z.to_nat i)) l).
      assert (I2 : Inv e (with_subs l' true t1)).
      { destruct I1 as [iv itf idf inn idt]. constructor; cbn; auto. }
      destruct (set_text_core e (join (S_ " ") l') (with_subs l' true t1) I2)
        as (I3 & X1 & X2 & X3 & X4 & X5 & X6 & X7).
      set (t2 := set_text _ _) in *. split; [|split].
      * destruct I3 as [iv itf idf inn idt]. constructor; cbn; auto.
      * unfold subs_ok. cbn. intros _. rewrite X1. symmetry. apply split_join.
        -- unfold l'. destruct (firstn _ _); discriminate.
        -- apply forallb_forall. intros x H. apply negb_true_iff.
           unfold l' in H. apply in_app_or in H as [H|[<-|H]].
           ++ apply in_firstn in H. eapply split_no_sep; eauto.
           ++ cbn in T. now apply negb_true_iff in T.
           ++ apply in_skipn in H. eapply split_no_sep; eauto.
      * unfold abs_of in A1 |- *. cbn. rewrite X1, X2, X3. cbn.
        injection A1 as _ -> ->. reflexivity.
  - destruct (good_query e p t I) as (_ & I1 & C1 & _). split; auto. split.
    + eapply core_subs; eauto.
    + now rewrite (core_abs _ _ C1).
  - destruct (subtokens_spec e t I O) as (_ & I1 & O1 & A1 & _). auto.
  - destruct (duration_spec e t I) as (I1 & B & _). split; auto.
    destruct B as (B1&B2&B3&B4&B5). split.
    + unfold subs_ok. rewrite B1, B4, B5. exact O.
    + unfold abs_of. now rewrite B1, B2, B3.
  - discriminate T.
Qed.

Lemma fold_steps e ops t : Inv e t -> subs_ok t -> forallb tame ops = true ->
  Inv e (fold_left (step e) ops t) /\ subs_ok (fold_left (step e) ops t)
  /\ abs_of (fold_left (step e) ops t) = fold_left abs_step ops (abs_of t).
Proof.
  revert t. induction ops as [|o ops IH]; intros t I O T; cbn; auto.
  cbn in T. apply andb_true_iff in T as [T1 T2].
  destruct (step_spec e t o I O T1) as (I1 & O1 & A1). rewrite <- A1. auto.
Qed.

Lemma history_spec e s ops : forallb tame ops = true ->
  Inv e (history e s ops) /\ subs_ok (history e s ops)
  /\ abs_of (history e s ops) = abs_history s ops.
Proof.
  intro T. apply fold_steps; auto using inv_new. unfold subs_ok. cbn. discriminate.
Qed.

(** Duration bookkeeping. *)
Definition asks_duration (o : op) : bool := match o with AskDuration => true | _ => false end.
Definition changes (o : op) : bool :=
  match o with Ask _ | AskSubtokens | AskDuration => false | _ => true end.

Lemma set_text_analyzed s t : k_analyzed (set_text s t) = k_analyzed t.
Proof. unfold set_text, clearTokenText. cbn. destruct (k_tflag t); reflexivity. Qed.
Lemma clearDataType_analyzed t : k_analyzed (clearDataType t) = k_analyzed t.
Proof. unfold clearDataType. destruct (k_dflag t); reflexivity. Qed.

Lemma step_analyzed e t o : Inv e t -> subs_ok t -> tame o = true -> asks_duration o = false ->
  k_analyzed (step e t o) = k_analyzed t.
Proof.
  intros I O T A. destruct o as [s|z|l|i s|p| | |tr]; cbn [step]; try discriminate.
  - apply set_text_analyzed.
  - destruct z as [n|]; cbn [set_track]; [destruct (1000 <? n)%Z; auto|];
      now rewrite clearDataType_analyzed.
  - unfold set_owner. now rewrite clearDataType_analyzed.
  - unfold replaceSubtoken. destruct (subtokens_spec e t I O) as (_ & _ & _ & _ & X & _).
    destruct (subtokens t) as [l t1]. cbn [fst snd] in X.
    destruct ((i <? 0)%Z || _); auto. cbn. rewrite set_text_analyzed. exact X.
  - destruct (good_query e p t I) as (_ & _ & C & _). apply C.
  - destruct (subtokens_spec e t I O) as (_ & _ & _ & _ & X & _). exact X.
Qed.

Lemma history_not_analyzed e s ops : forallb tame ops = true ->
  existsb asks_duration ops = false -> k_analyzed (history e s ops) = false.
Proof.
  unfold history. assert (I := inv_new e s).
  assert (O : subs_ok (new_tok s)) by (unfold subs_ok; cbn; discriminate).
  assert (K : k_analyzed (new_tok s) = false) by reflexivity.
  revert I O K. generalize (new_tok s). induction ops as [|o ops IH]; intros t I O K T A; cbn; auto.
  cbn in T, A. apply andb_true_iff in T as [T1 T2]. apply orb_false_iff in A as [A1 A2].
  destruct (step_spec e t o I O T1) as (I1 & O1 & _). apply IH; auto.
  now rewrite step_analyzed.
Qed.

(** Questions after the last change. *)
Lemma asking_keeps e ops t : Inv e t -> subs_ok t -> existsb changes ops = false ->
  (k_analyzed t = true -> k_dur t = dur_answer (k_text t) (true_dtype e t)) ->
  fst (duration e (fold_left (step e) ops t)) = dur_answer (k_text t) (true_dtype e t).
Proof.
  revert t. induction ops as [|o ops IH]; intros t I O C K.
  - cbn [fold_left]. destruct (duration_spec e t I) as (_ & _ & _ & A & B & _).
    destruct (k_analyzed t); [rewrite B; auto|auto].
  - cbn in C. apply orb_false_iff in C as [C1 C2]. cbn [fold_left].
    assert (T : tame o = true) by (destruct o; cbn in *; congruence).
    destruct (step_spec e t o I O T) as (I1 & O1 & A1).
    assert (E : abs_of (step e t o) = abs_of t) by (rewrite A1; destruct o; cbn in *; congruence).
    injection E as E1 E2 E3.
    assert (D : true_dtype e (step e t o) = true_dtype e t) by (unfold true_dtype; now rewrite E2, E3).
    rewrite IH; auto; rewrite ?E1, ?D; auto.
    intro KA. destruct o; cbn [step] in *; try discriminate.
    + destruct (good_query e p t I) as (_ & _ & CC & _).
      assert (k_analyzed t = true) by (destruct CC as (_&_&_&_&_&CC&_); congruence).
      destruct CC as (_&_&_&_&_&_&->). auto.
    + destruct (subtokens_spec e t I O) as (_ & _ & _ & _ & X & Y). rewrite Y. apply K. congruence.
    + destruct (duration_spec e t I) as (_ & _ & _ & A & B & Z). rewrite Z.
      destruct (k_analyzed t); [rewrite B; auto|auto].
Qed.
