(** Tokens (C50), track extraction (C51), linked layout parameters (C52, C69),
    reference records (C70) and mensural rhythms (C72). *)
From Coq Require Import Lia QArith Sorted.
Local Close Scope Q_scope.
From Verif Require Import PyStr HashModel LayoutModel BarModel RecipModel TokenModel TokenProofs TokenProofs2.

(** ** C50 *)

(** A file with one spine, track 1, whose exclusive interpretation is [d]. *)
Definition one_spine (d : str) : env :=
  mkEnv (fun _ tr => match tr with Some 1%Z => Some d | _ => None end) None.

(** A token nobody asked anything yet, with this text at this place. *)
Definition fresh (a : abs) : tok := with_addr (a_track a) (a_owner a) None (new_tok (a_text a)).

(** C50.  The full statement is that after any operations the answers are those of a fresh
    token with the same text and place.  The duration asked for before the text changes
    stays. *)
Theorem C50_duration_refuted : exists e s ops,
  fst (duration e (history e s ops)) <> fst (duration e (fresh (abs_history s ops))).
Proof.
  exists (one_spine (S_ "**kern")), (S_ "4c"),
    [SetOwner (Some 0); SetTrack (Some 1%Z); AskDuration; SetText (S_ "2c")].
  vm_compute. discriminate.
Qed.
Print Assumptions C50_duration_refuted.

(** Replacing a note of a chord by two notes leaves them counted as one. *)
Theorem C50_subtokens_refuted : exists e s ops,
  fst (subtokens (history e s ops)) <> fst (subtokens (fresh (abs_history s ops))).
Proof.
  exists (one_spine (S_ "**kern")), (S_ "4c 4e"), [ReplaceSubtoken 1 (S_ "4e 4g")].
  vm_compute. discriminate.
Qed.
Print Assumptions C50_subtokens_refuted.

(** copyStructure moves a token to another spine; what was asked about its spine before
    stays. *)
Theorem C50_copyStructure_refuted : exists e s ops p,
  fst (query e p (history e s ops)) <> fst (query e p (fresh (abs_history s ops))).
Proof.
  exists (one_spine (S_ "**kern")), (S_ "4c"),
    [SetOwner (Some 0); Ask isKern; CopyStructure (Some 1%Z)], isKern.
  vm_compute. discriminate.
Qed.
Print Assumptions C50_copyStructure_refuted.

Lemma fresh_inv e a : Inv e (fresh a).
Proof. apply inv_addr_none. Qed.

(** C50, part: without copyStructure and without spaces in replacement subtokens, after any
    text changes, moves, replacements and questions every classification and the list of
    subtokens are those of a fresh token, and say what the text and the spine say. *)
Theorem C50_classification_partial : forall e s ops, forallb tame ops = true ->
  let a := abs_history s ops in
  let t := history e s ops in
  k_text t = a_text a
  /\ (forall p, fst (query e p t) = fst (query e p (fresh a))
             /\ fst (query e p t) = answer e (a_text a) (exclusive_of e (a_owner a) (a_track a)) p)
  /\ fst (subtokens t) = fst (subtokens (fresh a))
  /\ fst (subtokens t) = split_char " "%char (a_text a).
Proof.
  intros e s ops T a t. destruct (history_spec e s ops T) as (I & O & A).
  assert (A1 : k_text t = a_text a) by (unfold t, a; now rewrite <- A).
  assert (A2 : true_dtype e t = exclusive_of e (a_owner a) (a_track a))
    by (unfold true_dtype, t, a; now rewrite <- A).
  split; [exact A1|]. split.
  - intro p. destruct (good_query e p t I) as (E & _).
    destruct (good_query e p (fresh a) (fresh_inv e a)) as (E' & _).
    rewrite E, E', A1, A2. split; reflexivity.
  - assert (O' : subs_ok (fresh a)) by (unfold subs_ok; cbn; discriminate).
    destruct (subtokens_spec e t I O) as (E & _).
    destruct (subtokens_spec e (fresh a) (fresh_inv e a) O') as (E' & _).
    rewrite E, E', A1. split; reflexivity.
Qed.
Print Assumptions C50_classification_partial.

(** C50, part: the duration too, if it was not asked for before the last change. *)
Theorem C50_duration_partial : forall e s ops asking, forallb tame ops = true ->
  existsb asks_duration ops = false -> existsb changes asking = false ->
  let a := abs_history s ops in
  let t := history e s (ops ++ asking) in
  fst (duration e t) = fst (duration e (fresh a))
  /\ fst (duration e t) = dur_answer (a_text a) (exclusive_of e (a_owner a) (a_track a)).
Proof.
  intros e s ops asking T D C a t. destruct (history_spec e s ops T) as (I & O & A).
  assert (E : fst (duration e t) = dur_answer (a_text a) (exclusive_of e (a_owner a) (a_track a))).
  { unfold t, history. rewrite fold_left_app. fold (history e s ops).
    rewrite asking_keeps; auto.
    - unfold true_dtype, a. now rewrite <- A.
    - rewrite history_not_analyzed by assumption. discriminate. }
  split; [|exact E]. rewrite E. symmetry.
  assert (O' : subs_ok (fresh a)) by (unfold subs_ok; cbn; discriminate).
  apply (asking_keeps e [] (fresh a) (fresh_inv e a) O'); [reflexivity|cbn; discriminate].
Qed.
Print Assumptions C50_duration_partial.

(** Which texts are bare rhythms. *)
Theorem C50_recip_only : forall e s, fst (query e isRecipOnly (new_tok s)) = true <->
  exists a b n, a <> [] /\ forallb is_digit a = true
    /\ (b = [] \/ exists b', b = "%"%char :: b' /\ b' <> [] /\ forallb is_digit b' = true)
    /\ s = a ++ b ++ repeat "."%char n.
Proof. intros e s. exact (recip_only_spec s). Qed.
Print Assumptions C50_recip_only.

Example C50_nonvacuous :
  let e := one_spine (S_ "**kern") in
  let ops := [Ask isNote; SetOwner (Some 0); Ask isRest; SetTrack (Some 1%Z); Ask isNote; Ask isRest; AskSubtokens;
              SetText (S_ "8r"); Ask isRest; SetText (S_ "4c 4e"); Ask isChord; Ask isNote;
              ReplaceSubtoken 0 (S_ "4.f"); Ask isRest] in
  forallb tame ops = true /\ existsb asks_duration ops = false
  /\ k_text (history e (S_ "*") ops) = S_ "4.f 4e"
  /\ map (fun p => fst (query e p (history e (S_ "*") ops))) [isNote; isRest; isChord; isKern] = [true; false; true; true]
  /\ fst (query e isNote (history e (S_ "*") (firstn 8 ops))) = false
  /\ option_map Qred (fst (duration e (history e (S_ "*") ops))) = Some (3 # 2)%Q.
Proof. vm_compute. repeat split. Qed.

(** ** C51 *)

(** C51.  getTrackSequence returns, for each line in order, the tokens of the track which
    pass the chosen filters, leaving out the lines that have none.  Global lines stand for
    themselves unless they are filtered out. *)
Theorem C51_track : forall o track lines,
  getTrackSequence o track lines = filter nonempty (map (wanted_tokens o track) lines).
Proof. exact getTrackSequence_spec. Qed.
Print Assumptions C51_track.

(** Without filters, every token of the track is there, once and in order. *)
Theorem C51_track_unfiltered : forall o track lines,
  o_primary o = false -> o_noempty o = false -> o_noglobal o = true -> (forall t, passes o t = true) ->
  concat (getTrackSequence o track lines) = filter (of_track track) (flat_map line_tokens lines).
Proof.
  intros o track lines P E G A. rewrite getTrackSequence_spec.
  assert (W : forall l, wanted_tokens o track l = filter (of_track track) (line_tokens l)).
  { assert (F : forall l, filter (passes o) l = l)
      by (induction l as [|x l IH]; cbn; [reflexivity|now rewrite A, IH]).
    intro l. unfold wanted_tokens. rewrite E, P, G, F. cbn [andb]. destruct l; reflexivity. }
  induction lines as [|l lines IH]; [reflexivity|]. cbn [map filter flat_map].
  rewrite filter_app, <- IH, W. destruct (filter (of_track track) (line_tokens l)); reflexivity.
Qed.
Print Assumptions C51_track_unfiltered.

(** getPrimaryTrackSequence never fails, and returns of each line the first token of the
    track, if it passes. *)
Theorem C51_primary : forall o track lines,
  getPrimaryTrackSequence o track lines
  = Some (flat_map (fun l => firstn 1 (wanted_tokens (primary o) track l)) lines).
Proof.
  intros o track lines. unfold getPrimaryTrackSequence. rewrite getTrackSequence_spec, heads_spec.
  - f_equal. induction lines as [|l lines IH]; [reflexivity|]. cbn [map filter flat_map].
    destruct (wanted_tokens (primary o) track l) as [|t r]; cbn [nonempty flat_map]; [exact IH|].
    now rewrite IH.
  - induction lines as [|l lines IH]; [reflexivity|]. cbn [map filter].
    destruct (wanted_tokens (primary o) track l) eqn:W; cbn [nonempty forallb]; auto.
Qed.
Print Assumptions C51_primary.

(** A token with this text in this track. *)
Definition text_token (track : nat) (s : str) : stok :=
  let ask p := answer (one_spine (S_ "**kern")) s (S_ "**kern") p in
  mkS (Some track) (ask isInterpretation) (ask isManipulator) (ask isNull) (ask isComment)
      (ask isRest) (char_in "_"%char s || char_in "]"%char s) s.
Definition no_manip : opts := mkOpts false false false false true false true false false.

(** The option leaving out manipulators is documented to keep exclusive interpretations; it
    leaves them out. *)
Theorem C51_manipulators_refuted : exists track lines t,
  In t (flat_map line_tokens lines) /\ of_track track t = true
  /\ starts_with (S_ "**") (s_text t) = true
  /\ ~ In t (concat (getTrackSequence no_manip track lines)).
Proof.
  exists (Some 1), [SpinedLine [text_token 1 (S_ "**kern")]], (text_token 1 (S_ "**kern")).
  split; [now left|]. vm_compute. auto.
Qed.
Print Assumptions C51_manipulators_refuted.

Example C51_nonvacuous :
  let t := text_token in
  let lines := [GlobalLine (mkS None false false false true false false (S_ "!!!COM: Bach"));
                SpinedLine [t 1 (S_ "**kern"); t 2 (S_ "**kern")];
                SpinedLine [t 1 (S_ "4c"); t 2 (S_ "4e")]; EmptyLine;
                SpinedLine [t 1 (S_ "*^"); t 2 (S_ "*")];
                SpinedLine [t 1 (S_ "."); t 1 (S_ "4d"); t 2 (S_ "4f")];
                SpinedLine [t 1 (S_ "."); t 1 (S_ "."); t 2 (S_ "4g")]] in
  let o := mkOpts false false true true false false false false false in
  map (map s_text) (getTrackSequence o (Some 1) lines)
  = [[S_ "!!!COM: Bach"]; [S_ "4c"]; [S_ "."; S_ "4d"]]
  /\ option_map (map s_text) (getPrimaryTrackSequence o (Some 1) lines)
     = Some [S_ "!!!COM: Bach"; S_ "4c"; S_ "."].
Proof. vm_compute. auto. Qed.

(** ** C52 *)

(** C52.  Whatever layout tokens are attached to a token, and in whichever order, they are
    kept in the order of their lines, those of one line in the order of attachment; none
    twice; all of them except those to be ignored. *)
Theorem C52_layout_parameters : forall ts,
  (forall a b, In a ts -> In b ts -> l_id a = l_id b -> a = b) ->
  let r := attach_all ts in
  StronglySorted (fun a b => (l_line a <= l_line b)%Z) r
  /\ NoDup r
  /\ (forall t, In t r <-> In t ts /\ contains (S_ ":ignore") (l_text t) = false)
  /\ (NoDup ts -> forall z,
        filter (fun t => (l_line t =? z)%Z) r
        = filter (fun t => (l_line t =? z)%Z && negb (contains (S_ ":ignore") (l_text t))) ts).
Proof.
  intros ts U r.
  destruct (attach_from ts [] ltac:(constructor) ltac:(constructor)) as (S & D & F).
  fold (attach_all ts) in *. fold r in S, D, F. cbn [map filter app] in F.
  split; [exact S|]. split; [now apply NoDup_map_inv in D|]. split.
  - intro t. rewrite in_filter_line, F, <- in_filter_line, attached_in by exact U.
    cbn. unfold ignored. tauto.
  - intros N z. change (fun t => (l_line t =? z)%Z) with (on_line z). rewrite F.
    apply attached_filter; auto.
Qed.
Print Assumptions C52_layout_parameters.

(** The index returned is that of the token in the list, -1 if it is to be ignored. *)
Theorem C52_index : forall ts t,
  (forall a b, In a (t :: ts) -> In b (t :: ts) -> l_id a = l_id b -> a = b) ->
  let r := addLinkedParameterSet (attach_all ts) t in
  fst r = attach_all (ts ++ [t])
  /\ (if contains (S_ ":ignore") (l_text t) then snd r = (-1)%Z
      else (0 <= snd r)%Z /\ nth_error (fst r) (Z.to_nat (snd r)) = Some t).
Proof.
  intros ts t U r. split; [unfold attach_all; now rewrite fold_left_app|].
  destruct (contains (S_ ":ignore") (l_text t)) eqn:G.
  - unfold r, addLinkedParameterSet. now rewrite G.
  - assert (S : in_order (attach_all ts))
      by (apply (C52_layout_parameters ts); intros a b A B; apply U; now right).
    destruct (add_index _ t S G) as (x & X & I & P). split; [exact P|]. fold r in X, I, P.
    rewrite X. f_equal. apply U; [|now left|exact I].
    apply nth_error_In in X.
    assert (R : fst r = attach_all (ts ++ [t])) by (unfold r, attach_all; now rewrite fold_left_app).
    rewrite R in X. apply C52_layout_parameters in X as [X _].
    + apply in_app_iff in X as [X|[->|[]]]; [now right|now left].
    + intros a b A B. apply in_app_iff in A, B. cbn in A, B. apply U; cbn; tauto.
Qed.
Print Assumptions C52_index.

Example C52_nonvacuous :
  let a := mkL 0 12 (S_ "!LO:N:vis=4") in
  let b := mkL 1 7 (S_ "!LO:N:vis=2") in
  let c := mkL 2 12 (S_ "!LO:N:smp") in
  let d := mkL 3 9 (S_ "!LO:TX:t=hello:ignore") in
  let f := mkL 4 9 (S_ "!LO:TX:t=hello") in
  let ts := [a; b; c; a; d; f; c] in
  (forall x y, In x ts -> In y ts -> l_id x = l_id y -> x = y)
  /\ attach_all ts = [b; f; a; c]
  /\ snd (addLinkedParameterSet [b; a; c] f) = 1%Z /\ snd (addLinkedParameterSet [b; f; a; c] c) = 3%Z.
Proof.
  cbv zeta. split; [|vm_compute; auto].
  intros x y X Y E. cbn [In] in X, Y.
  repeat (destruct X as [<-|X]); try destruct X;
  repeat (destruct Y as [<-|Y]); try destruct Y; try reflexivity; discriminate.
Qed.

(** ** C69 *)

Definition lo (category : str) (ps : list (str * str)) : paramset := ParamSet (S_ "LO") category ps.

(** C69.  The full statement is [layoutParameter … = Some (wanted_value …)] for every note
    of a chord.  The note a set names is remembered for the next set, which may name none. *)
Theorem C69_layout_note_refuted : exists sets category key idx, (0 <= idx)%Z
  /\ (forall h, In h sets -> numbered h = true -> digits_only (note_number h) = true)
  /\ layoutParameter [] 0 sets category key idx <> Some (wanted_value sets category key idx).
Proof.
  exists [lo (S_ "N") [(S_ "n", S_ "1"); (S_ "head", S_ "x")]; lo (S_ "N") [(S_ "vis", S_ "4")]],
    (S_ "N"), (S_ "vis"), 1%Z.
  split; [lia|]. split; [|vm_compute; discriminate].
  intros h [<-|[<-|[]]]; vm_compute; auto.
Qed.
Print Assumptions C69_layout_note_refuted.

(** A set naming the note without giving the value hides a later one that gives it. *)
Theorem C69_layout_second_refuted : exists sets category key idx, (0 <= idx)%Z
  /\ forallb numbered sets = true
  /\ layoutParameter [] 0 sets category key idx <> Some (wanted_value sets category key idx).
Proof.
  exists [lo (S_ "N") [(S_ "n", S_ "1"); (S_ "head", S_ "x")]; lo (S_ "N") [(S_ "n", S_ "1"); (S_ "vis", S_ "4")]],
    (S_ "N"), (S_ "vis"), 0%Z.
  split; [lia|]. split; [reflexivity|]. vm_compute. discriminate.
Qed.
Print Assumptions C69_layout_second_refuted.

(** C69, part: if in the category the sets naming a note come last, name it by a number, and
    at most one names this note, the note gets the value given by the first set of the
    category that applies to it (by naming it or naming none) and gives one. *)
Theorem C69_layout_note_partial : forall sets category key idx, (0 <= idx)%Z ->
  (forall h, In h sets -> of_category category h = true -> numbered h = true ->
             digits_only (note_number h) = true) ->
  numbered_last (filter (of_category category) sets) = true ->
  length (naming category idx sets) <= 1 ->
  forall local n, (local = [] \/ n <> idx + 1)%Z ->
  layoutParameter local n sets category key idx = Some (wanted_value sets category key idx).
Proof.
  intros sets category key idx P D L N local n H. unfold layoutParameter.
  rewrite (scan_sets_pos category key idx P) by (auto; congruence).
  destruct local as [|c local]; [reflexivity|].
  destruct H as [H|H]; [discriminate|].
  apply Z.leb_le in P. rewrite P. apply Z.eqb_neq in H. now rewrite H.
Qed.
Print Assumptions C69_layout_note_partial.

(** The whole token gets its own value, if it has one, or else the first value given by any
    set of the category; a note its own if it is the one named. *)
Theorem C69_layout_token : forall sets category key idx local n,
  ((idx < 0)%Z -> local = [] ->
     layoutParameter local n sets category key idx
     = Some (match filter (fun p => str_eqb (fst p) key)
                     (flat_map ps_params (filter (of_category category) sets)) with
             | p :: _ => snd p
             | [] => []
             end))
  /\ (local <> [] -> (idx < 0 \/ n = idx + 1)%Z ->
      layoutParameter local n sets category key idx = Some local).
Proof.
  intros sets category key idx local n. split.
  - intros P ->. unfold layoutParameter. rewrite scan_sets_neg by exact P.
    destruct (filter _ (flat_map _ _)); [|reflexivity].
    destruct (filter (of_category category) sets); reflexivity.
  - intros L H. unfold layoutParameter. destruct local as [|c local]; [congruence|].
    destruct (0 <=? idx)%Z eqn:P; [|reflexivity]. apply Z.leb_le in P.
    destruct H as [H|H]; [lia|]. apply Z.eqb_eq in H. now rewrite H.
Qed.
Print Assumptions C69_layout_token.

Example C69_nonvacuous :
  let sets := [lo (S_ "N") [(S_ "smp", S_ "true")]; lo (S_ "TX") [(S_ "t", S_ "x"); (S_ "vis", S_ "2")];
               lo (S_ "N") [(S_ "n", S_ "1"); (S_ "vis", S_ "4")]; lo (S_ "N") [(S_ "vis", S_ "8"); (S_ "n", S_ "2")]] in
  numbered_last (filter (of_category (S_ "N")) sets) = true
  /\ length (naming (S_ "N") 1 sets) = 1
  /\ layoutParameter [] 0 sets (S_ "N") (S_ "vis") 1 = Some (S_ "8")
  /\ layoutParameter [] 0 sets (S_ "N") (S_ "vis") 2 = Some []
  /\ layoutParameter [] 0 sets (S_ "N") (S_ "smp") 2 = Some (S_ "true")
  /\ layoutParameter [] 0 sets (S_ "N") (S_ "vis") (-1) = Some (S_ "4").
Proof. vm_compute. auto 10. Qed.

(** ** C70 *)

(** A reference record with [n] exclamation marks, and blanks around key and value. *)
Definition record (n : nat) (a k b c v d : str) : str :=
  repeat "!"%char n ++ (a ++ k ++ b) ++ ":"%char :: (c ++ v ++ d).

(** C70.  The full statement: what is written as [!!!KEY: VALUE] or [!!!!KEY: VALUE] is read
    back as that key and that value, and a line with a blank before the colon is no record.
    A universal record's value is lost. *)
Theorem C70_universal_value_refuted : exists k v,
  strip k = k /\ strip v = v /\ char_in ":"%char k = false
  /\ isUniversalReference (record 4 [] k [] (S_ " ") v []) = true
  /\ referenceValue (record 4 [] k [] (S_ " ") v []) <> v.
Proof. exists (S_ "COM"), (S_ "Bach"). vm_compute. repeat split; discriminate. Qed.
Print Assumptions C70_universal_value_refuted.

(** A comment with a blank before its colon counts as a record. *)
Theorem C70_blank_key_refuted : exists k v, char_in " "%char k = true
  /\ isGlobalReference (record 3 [] k [] (S_ " ") v []) = true.
Proof. exists (S_ "see also"), (S_ "op. 2"). vm_compute. auto. Qed.
Print Assumptions C70_blank_key_refuted.

(** C70, part: the key and the value of every ordinary record, and the key of every
    universal one, are read back, whatever blanks stand around them. *)
Theorem C70_reference_partial : forall a k b c v d,
  forallb is_space a = true -> forallb is_space b = true ->
  forallb is_space c = true -> forallb is_space d = true ->
  strip k = k -> strip v = v -> char_in ":"%char k = false -> k <> [] ->
  starts_with (S_ "!") k = false ->
  referenceKey (record 3 a k b c v d) = k
  /\ referenceValue (record 3 a k b c v d) = v
  /\ referenceKey (record 4 a k b c v d) = k
  /\ isGlobalReference (record 3 a k b c v d) = true
  /\ isUniversalReference (record 4 a k b c v d) = true
  /\ isUniversalReference (record 3 a k b c v d) = false
  /\ isGlobalReference (record 4 a k b c v d) = false.
Proof.
  intros a k b c v d A B C D K V N NE NB.
  assert (NC : char_in ":"%char (a ++ k ++ b) = false).
  { assert (SP : forall x, forallb is_space x = true -> char_in ":"%char x = false).
    { induction x as [|y x IH]; [reflexivity|]. intro H. cbn [forallb] in H.
      apply andb_true_iff in H as [H1 H2]. unfold char_in in *. cbn [existsb].
      rewrite (IH H2), orb_false_r. destruct (Ascii.eqb ":"%char y) eqn:E; [|reflexivity].
      apply Ascii.eqb_eq in E. subst y. discriminate H1. }
    unfold char_in. rewrite !existsb_app. fold (char_in ":"%char a) (char_in ":"%char k) (char_in ":"%char b).
    rewrite (SP a A), (SP b B), N. reflexivity. }
  assert (HD : exists x y, a ++ k ++ b = x :: y /\ Ascii.eqb "!"%char x = false).
  { destruct a as [|x a].
    - destruct k as [|x k]; [congruence|]. exists x, (k ++ b). split; [reflexivity|].
      cbn in NB. rewrite andb_true_r in NB. exact NB.
    - exists x, (a ++ k ++ b). split; [reflexivity|]. cbn in A. apply andb_true_iff in A as [A _].
      destruct (Ascii.eqb "!"%char x) eqn:E; [|reflexivity]. apply Ascii.eqb_eq in E. subst. discriminate. }
  pose proof (key_and_value a k b c v d A B C D K V NC) as KV.
  destruct HD as (x & y & HE & HX).
  assert (CO : char_in ":"%char ((a ++ k ++ b) ++ ":"%char :: (c ++ v ++ d)) = true).
  { unfold char_in. rewrite existsb_app. cbn. now rewrite orb_true_r. }
  unfold record. set (body := (a ++ k ++ b) ++ ":"%char :: (c ++ v ++ d)) in *.
  assert (BX : exists z z', body = x :: z :: z').
  { unfold body. rewrite HE. cbn. destruct (y ++ _) as [|z z'] eqn:E; [destruct y; discriminate|eauto]. }
  destruct BX as (z & z' & BX).
  assert (S1 : starts_with (S_ "!") body = false).
  { rewrite BX. change (Ascii.eqb "!"%char x && true = false). rewrite HX. reflexivity. }
  assert (LE : forall n, 3 <= n -> (5 <=? length (repeat "!"%char n ++ body)) = true).
  { intros n L. apply Nat.leb_le. rewrite app_length, repeat_length, BX. cbn [length]. lia. }
  assert (CC : forall n, has ":"%char (repeat "!"%char n ++ body) = true).
  { intro n. unfold has, char_in in *. rewrite existsb_app, CO. apply orb_true_r. }
  assert (G3 : isGlobalReference (repeat "!"%char 3 ++ body) = true).
  { unfold isGlobalReference. rewrite LE, CC by lia.
    change (starts_with (S_ "!!!!") (repeat "!"%char 3 ++ body)) with (starts_with (S_ "!") body).
    rewrite S1. reflexivity. }
  assert (G4 : isUniversalReference (repeat "!"%char 4 ++ body) = true).
  { unfold isUniversalReference. rewrite LE, CC by lia.
    change (starts_with (S_ "!!!!!") (repeat "!"%char 4 ++ body)) with (starts_with (S_ "!") body).
    rewrite S1. reflexivity. }
  assert (N3 : isUniversalReference (repeat "!"%char 3 ++ body) = false).
  { unfold isUniversalReference. rewrite LE by lia.
    change (starts_with (S_ "!!!!") (repeat "!"%char 3 ++ body)) with (starts_with (S_ "!") body).
    rewrite S1. reflexivity. }
  assert (N4 : isGlobalReference (repeat "!"%char 4 ++ body) = false).
  { unfold isGlobalReference. rewrite LE by lia. reflexivity. }
  unfold referenceKey, referenceValue. rewrite G3, G4, N4.
  change (skipn 3 (repeat "!"%char 3 ++ body)) with body.
  change (skipn 4 (repeat "!"%char 4 ++ body)) with body. rewrite KV. auto 10.
Qed.
Print Assumptions C70_reference_partial.

Example C70_nonvacuous :
  record 3 [] (S_ "OTL@@DE") (S_ " ") (S_ " ") (S_ "Prelude: in C") (S_ " ") = S_ "!!!OTL@@DE : Prelude: in C "
  /\ strip (S_ "OTL@@DE") = S_ "OTL@@DE" /\ strip (S_ "Prelude: in C") = S_ "Prelude: in C"
  /\ char_in ":"%char (S_ "OTL@@DE") = false /\ starts_with (S_ "!") (S_ "OTL@@DE") = false.
Proof. vm_compute. auto 10. Qed.

(** ** C72 *)

(** C72.  The full statement: a mensural note lasts what its rhythm letter says, half as long
    again if it is marked perfect.  A mark after the letter is not seen. *)
Theorem C72_perfection_refuted : exists c q post,
  In (c, q) mens_table /\ marked_perfect (c :: post) = true /\ char_in " "%char (c :: post) = false
  /\ ~ (mensToDuration (c :: post) == q * (3 # 2))%Q.
Proof.
  exists "S"%char, 8%Q, (S_ "pa"). split; [vm_compute; auto|]. split; [reflexivity|]. split; [reflexivity|].
  vm_compute. discriminate.
Qed.
Print Assumptions C72_perfection_refuted.

(** C72, part: with the marks before the rhythm letter; without them the same rhythm has its
    plain duration; and a note without rhythm letter lasts nothing. *)
Theorem C72_mensural_partial : forall pre c q post,
  In (c, q) mens_table ->
  forallb (fun x => negb (is_rhythm x) && negb (Ascii.eqb x " "%char)) pre = true ->
  (mensToDuration (pre ++ c :: post) == q * (if marked_perfect pre then 3 # 2 else 1))%Q
  /\ (mensToDurationNoDots (pre ++ c :: post) == q)%Q
  /\ (forall s, forallb (fun x => negb (is_rhythm x)) s = true ->
        (mensToDuration s == 0)%Q /\ (mensToDurationNoDots s == 0)%Q).
Proof.
  intros pre c q post T P. destruct (mens_letter_table c q T) as (w & W & E).
  split; [|split; [|exact mens_none]].
  - unfold mensToDuration. rewrite (mens_scan_spec pre post w c false P W).
    fold (marked_perfect pre). destruct (marked_perfect pre); rewrite <- E; field.
  - unfold mensToDurationNoDots. rewrite (mens_plain_spec pre post w c P W). exact E.
Qed.
Print Assumptions C72_mensural_partial.

Example C72_nonvacuous :
  In ("L"%char, 16%Q) mens_table
  /\ forallb (fun x => negb (is_rhythm x) && negb (Ascii.eqb x " "%char)) (S_ "[ip") = true
  /\ marked_perfect (S_ "[ip") = true
  /\ (mensToDuration (S_ "[ipLcc sdd") == 24)%Q.
Proof. vm_compute. auto 10. Qed.
