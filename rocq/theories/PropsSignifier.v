(** Properties of user signifiers: C31, C71, C78, C79, C80. *)
From Coq Require Import Lia.
From Verif Require Import PyStr PyStrProofs LayoutModel BarModel SignifierModel SignifierProofs.

(** ** C31: the tables stay aligned *)

(** The other meanings a signifier of notes can be given. *)
Definition other_meanings : list str :=
  [S_ "no stem"; S_ "cue size"; S_ "hairpin accent"; S_ "terminal long"; S_ "long note"; S_ "above"; S_ "below"; S_ "link";
   S_ "editorial accidental"; S_ "phrase"].
Definition colour_said (d c : str) : Prop := value_of (S_ "color") d c.
Definition no_colour_said (d : str) : Prop := no_value (S_ "color") d.

(** The colour a record gives to marked notes. *)
Definition note_colour_of (r : rdf) (c : str) : Prop :=
  colour_said (rd_def r) c
  \/ no_colour_said (rd_def r) /\ (mentions (S_ "marked note") (rd_def r) \/ mentions (S_ "matched note") (rd_def r)) /\ c = S_ "red".
Definition marks_notes (r : rdf) : Prop :=
  for_notes r /\ mentions_none other_meanings (rd_def r) /\ exists c, note_colour_of r c.

(** The words to print: behind an equals sign, quoted or not, up to the next quote.
    If there are none, the last of the blanks there. *)
Definition says_text (s t : str) : Prop :=
  exists sp1 sp2 q rest, s = S_ "text" ++ sp1 ++ S_ "=" ++ sp2 ++ q ++ rest /\ blank sp1 /\ blank sp2 /\ quote_mark q
    /\ no_more is_space (q ++ rest)
    /\ (q = [] -> no_more (fun c => Ascii.eqb c dquote) rest)
    /\ ((exists after, rest = t ++ after /\ t <> [] /\ ~ In dquote t /\ (after = [] \/ exists z, after = dquote :: z))
        \/ (rest = [] \/ exists z, rest = dquote :: z) /\ exists sp0 c, sp2 = sp0 ++ [c] /\ t = [c]).
Definition words_to_print (r : rdf) (t : str) : Prop :=
  first_match says_text (rd_def r) t
  \/ (forall a b v, rd_def r = a ++ b -> ~ says_text b v) /\ t = [].

(** A record that marks words of lyrics. *)
Definition marks_text (r : rdf) : Prop :=
  for_text r /\ (mentions (S_ "marked text") (rd_def r) \/ mentions (S_ "matched text") (rd_def r)).
Definition text_colour_of (r : rdf) (c : str) : Prop :=
  colour_said (rd_def r) c \/ no_colour_said (rd_def r) /\ c = S_ "red".

Definition marks_editorial (r : rdf) : Prop :=
  for_notes r /\ mentions (S_ "editorial accidental") (rd_def r)
  /\ mentions_none [S_ "no stem"; S_ "cue size"; S_ "hairpin accent"; S_ "terminal long"; S_ "long note"; S_ "above"; S_ "below"; S_ "link"] (rd_def r).
Definition editorial_type_of (r : rdf) (t : str) : Prop :=
  mentions (S_ "brack") (rd_def r) /\ t = S_ "brack"
  \/ ~ mentions (S_ "brack") (rd_def r) /\ mentions (S_ "paren") (rd_def r) /\ t = S_ "paren"
  \/ mentions_none [S_ "brack"; S_ "paren"] (rd_def r) /\ mentions (S_ "none") (rd_def r) /\ t = S_ "none"
  \/ mentions_none [S_ "brack"; S_ "paren"; S_ "none"] (rd_def r) /\ t = [].

Definition tables_aligned (l : list rdf) (k : known) : Prop :=
  (exists rs, chosen marks_notes l rs /\ k_noteMarks k = map rd_sig rs
     /\ Forall2 note_colour_of rs (k_noteColors k) /\ Forall2 words_to_print rs (k_noteDirs k))
  /\ (exists rs, chosen marks_text l rs /\ k_textMarks k = map rd_sig rs /\ Forall2 text_colour_of rs (k_textColors k))
  /\ (exists rs, chosen marks_editorial l rs /\ k_editorials k = map rd_sig rs
       /\ Forall2 editorial_type_of rs (k_editorialTypes k)).

(** The lines of the file that are signifier records, read one by one. *)
Definition rdf_line (s : str) : Prop := 9 <= length s /\ (exists t, s = S_ "!!!RDF**" ++ t) /\ parseSignifier s <> None.
Definition records_of (lines : list str) (l : list rdf) : Prop :=
  exists ls, chosen rdf_line lines ls /\ Forall2 (fun s r => parseSignifier s = Some r) ls l.

Lemma not_quote_forall v : forallb not_quote v = true <-> ~ In dquote v.
Proof.
  rewrite forallb_forall. split.
  - intros H I. specialize (H _ I). unfold not_quote in H. rewrite Ascii.eqb_refl in H. discriminate.
  - intros H c C. unfold not_quote. destruct (Ascii.eqb c dquote) eqn:E; [|reflexivity].
    apply Ascii.eqb_eq in E. subst c. contradiction.
Qed.
Lemma no_more_not_quote r : no_more not_quote r <-> r = [] \/ exists z, r = dquote :: z.
Proof.
  destruct r as [|c r]; cbn; [tauto|]. unfold not_quote. rewrite negb_false_iff, Ascii.eqb_eq. split.
  - intros ->. right. eauto.
  - intros [E|(z & E)]; [discriminate|injection E as ->; reflexivity].
Qed.

Lemma text_iff s t : text_here s = Some t <-> says_text s t.
Proof.
  unfold text_here. split.
  - destruct (lit (S_ "text") s) as [s1|] eqn:L; [|discriminate]. apply lit_iff in L. subst s.
    destruct (skip_split s1) as (sp1 & E1 & B1 & _). destruct (skip_spaces s1) as [|c s2]; [discriminate|].
    destruct (Ascii.eqb c "="%char) eqn:C; [|discriminate]. apply Ascii.eqb_eq in C. subst c.
    destruct (spaces s2) as (sp2, s3) eqn:SP. apply span_iff in SP. destruct SP as (E2 & B2 & N2).
    assert (QQ : exists q rest, s3 = q ++ rest /\ opt_quote s3 = rest /\ quote_mark q
               /\ (q = [] -> no_more (fun c => Ascii.eqb c dquote) rest)).
    { destruct s3 as [|c s3].
      - exists [], []. repeat split. left. reflexivity.
      - cbn. destruct (Ascii.eqb c dquote) eqn:Q.
        + apply Ascii.eqb_eq in Q. subst c. exists [dquote], s3. repeat split; [right; reflexivity|discriminate].
        + exists [], (c :: s3). repeat split; [left; reflexivity|]. intros _. exact Q. }
    destruct QQ as (q & rest & E3 & E4 & Q & NQ). rewrite E4.
    destruct (span not_quote rest) as (v, after) eqn:SP. apply span_iff in SP. destruct SP as (E5 & F & N).
    intros H. exists sp1, sp2, q, rest. split; [rewrite E1, E2, E3; reflexivity|].
    split; [exact B1|]. split; [exact B2|]. split; [exact Q|]. split; [rewrite <- E3; exact N2|]. split; [exact NQ|].
    destruct v as [|x v].
    + right. cbn in E5. subst after. split; [apply no_more_not_quote; exact N|].
      destruct (rev sp2) as [|y z] eqn:R; [discriminate|]. injection H as <-.
      exists (rev z), y. split; [|reflexivity]. rewrite <- (rev_involutive sp2), R. reflexivity.
    + injection H as <-. left. exists after. split; [exact E5|]. split; [discriminate|].
      split; [apply not_quote_forall; exact F|apply no_more_not_quote; exact N].
  - intros (sp1 & sp2 & q & rest & -> & B1 & B2 & Q & N2 & NQ & H).
    assert (L : lit (S_ "text") (S_ "text" ++ sp1 ++ S_ "=" ++ sp2 ++ q ++ rest) = Some (sp1 ++ S_ "=" ++ sp2 ++ q ++ rest))
      by (apply lit_iff; reflexivity).
    rewrite L, (skip_app sp1) by (exact B1 || exact eq_no_space).
    change (S_ "=" ++ sp2 ++ q ++ rest) with ("="%char :: sp2 ++ q ++ rest). cbv beta iota. rewrite (Ascii.eqb_refl "="%char).
    rewrite (spaces_app sp2 (q ++ rest) B2 N2).
    assert (O : opt_quote (q ++ rest) = rest).
    { destruct Q as [->| ->].
      - specialize (NQ eq_refl). cbn [app]. destruct rest as [|c rest]; [reflexivity|]. cbn in *. rewrite NQ. reflexivity.
      - cbn. reflexivity. }
    rewrite O. destruct H as [(after & -> & NT & NI & A)|(R & sp0 & c & -> & ->)].
    + assert (SP : span not_quote (t ++ after) = (t, after)).
      { apply span_iff. split; [reflexivity|]. split; [apply not_quote_forall; exact NI|apply no_more_not_quote; exact A]. }
      rewrite SP. destruct t; [contradiction|reflexivity].
    + assert (SP : span not_quote rest = ([], rest)).
      { apply span_iff. split; [reflexivity|]. split; [reflexivity|apply no_more_not_quote; exact R]. }
      rewrite SP, rev_app_distr. reflexivity.
Qed.

Lemma words_dec r : words_to_print r (or_else (find_text (rd_def r)) []).
Proof.
  unfold words_to_print, find_text. destruct (search text_here (rd_def r)) as [t|] eqn:E; cbn.
  - left. apply (search_iff text_here says_text text_iff). exact E.
  - right. split; [|reflexivity]. apply (search_none text_here says_text text_iff). exact E.
Qed.

Lemma other_eq : words_of 9 = other_meanings. Proof. reflexivity. Qed.

Lemma note_colour_iff r c : note_colour r = Some c <-> for_notes r /\ mentions_none other_meanings (rd_def r) /\ note_colour_of r c.
Proof.
  unfold note_colour, note_colour_of, colour_said, no_colour_said. rewrite <- for_notes_iff, <- other_eq, <- no_hit_iff, <- Nat.eqb_eq.
  rewrite <- !find_value_iff, <- !find_value_none, <- !contains_iff.
  destruct (for_notesb r); cbn [andb]; [|split; [discriminate|intros (H & _); discriminate]].
  destruct (Nat.eqb (first_hit (rd_def r) meanings) 9); [|split; [discriminate|intros (_ & H & _); discriminate]].
  destruct (find_value (S_ "color") (rd_def r)) as [x|].
  - split; [intros H; auto|]. intros (_ & _ & [H|(H & _)]); [exact H|discriminate].
  - destruct (contains (S_ "marked note") (rd_def r)), (contains (S_ "matched note") (rd_def r)); cbn [orb];
      (split; [intros H; try discriminate; injection H as <-; auto 10
              |intros (_ & _ & [H|(_ & [H|H] & ->)]); try discriminate; reflexivity]).
Qed.
Lemma is_note_iff r : is_note r = true <-> marks_notes r.
Proof.
  unfold is_note, marks_notes. destruct (note_colour r) as [c|] eqn:E.
  - split; [|reflexivity]. intros _. apply note_colour_iff in E. destruct E as (A & B & C). eauto.
  - split; [discriminate|]. intros (A & B & c & C). assert (X : note_colour r = Some c) by (apply note_colour_iff; auto). congruence.
Qed.
Lemma is_text_iff r : is_text r = true <-> marks_text r.
Proof. unfold is_text, marks_text. rewrite andb_true_iff, orb_true_iff, for_text_iff, !contains_iff. reflexivity. Qed.
Lemma is_editorial_iff r : is_editorial r = true <-> marks_editorial r.
Proof.
  unfold is_editorial, marks_editorial. rewrite andb_true_iff, for_notes_iff, Nat.eqb_eq.
  rewrite (hit_at_iff (rd_def r) 7 [S_ "editorial accidental"] eq_refl).
  change (words_of 7) with [S_ "no stem"; S_ "cue size"; S_ "hairpin accent"; S_ "terminal long"; S_ "long note"; S_ "above"; S_ "below"; S_ "link"].
  split.
  - intros (A & B & w & [<-|[]] & W). auto.
  - intros (A & B & C). split; [exact A|]. split; [exact C|]. exists (S_ "editorial accidental"). split; [left; reflexivity|exact B].
Qed.
Lemma text_colour_dec r : text_colour_of r (or_else (find_value (S_ "color") (rd_def r)) (S_ "red")).
Proof.
  unfold text_colour_of, colour_said, no_colour_said. destruct (find_value (S_ "color") (rd_def r)) as [c|] eqn:E; cbn [or_else].
  - left. apply find_value_iff. exact E.
  - right. split; [apply find_value_none; exact E|reflexivity].
Qed.
Lemma none2 a b d : mentions_none [a; b] d <-> ~ mentions a d /\ ~ mentions b d.
Proof. split; [intros H; split; apply H; cbn; auto|intros (A & B) w [<-|[<-|[]]]; assumption]. Qed.
Lemma none3 a b c d : mentions_none [a; b; c] d <-> ~ mentions a d /\ ~ mentions b d /\ ~ mentions c d.
Proof. split; [intros H; repeat split; apply H; cbn; auto|intros (A & B & C) w [<-|[<-|[<-|[]]]]; assumption]. Qed.
Lemma editorial_dec r : editorial_type_of r (editorial_type (rd_def r)).
Proof.
  unfold editorial_type_of, editorial_type. rewrite none2, none3, <- !contains_iff.
  destruct (contains (S_ "brack") (rd_def r)); [auto|].
  destruct (contains (S_ "paren") (rd_def r)); [right; left; repeat split; congruence|].
  destruct (contains (S_ "none") (rd_def r)); [right; right; left; repeat split; congruence|].
  right; right; right. repeat split; congruence.
Qed.

Lemma Forall2_map_r {A B} (R : A -> B -> Prop) f l : (forall x, In x l -> R x (f x)) -> Forall2 R l (map f l).
Proof. induction l; intros H; cbn; constructor; [apply H; left; reflexivity|]. apply IHl. intros. apply H. right. assumption. Qed.

Lemma Forall2_len {A B} (R : A -> B -> Prop) l l' : Forall2 R l l' -> length l = length l'.
Proof. induction 1; cbn; congruence. Qed.

Lemma aligned l : tables_aligned l (generateKnownInfo l).
Proof.
  destruct (notes_known l) as (A & B & C). destruct (text_known l) as (D & E). destruct (editorial_known l) as (F & G).
  split; [|split].
  - exists (filter is_note l). split; [apply filter_chosen; exact is_note_iff|]. split; [exact A|]. split.
    + rewrite B. apply Forall2_map_r. intros r I. apply filter_In in I. destruct I as (_ & I). unfold is_note in I.
      destruct (note_colour r) as [c|] eqn:Q; [|discriminate]. cbn. apply note_colour_iff in Q. tauto.
    + rewrite C. apply Forall2_map_r. intros r _. apply words_dec.
  - exists (filter is_text l). split; [apply filter_chosen; exact is_text_iff|]. split; [exact D|].
    rewrite E. apply Forall2_map_r. intros r _. apply text_colour_dec.
  - exists (filter is_editorial l). split; [apply filter_chosen; exact is_editorial_iff|]. split; [exact F|].
    rewrite G. apply Forall2_map_r. intros r _. apply editorial_dec.
Qed.

Definition parses (s : str) : bool := match parseSignifier s with Some _ => true | None => false end.
Lemma rdf_line_iff s : (isSignifier s && parses s) = true <-> rdf_line s.
Proof.
  unfold isSignifier, rdf_line, parses. rewrite !andb_true_iff, negb_true_iff, starts_iff, Nat.ltb_ge.
  destruct (parseSignifier s); split.
  - intros ((A & B) & _). split; [exact A|]. split; [exact B|discriminate].
  - intros (A & B & _). auto.
  - intros (_ & H). discriminate.
  - intros (_ & _ & H). contradiction.
Qed.

Lemma read_records lines : exists l, records_of lines l /\ fold_left add_line lines [] = l.
Proof.
  set (f := fun s => isSignifier s && parses s).
  assert (G : forall ls acc, exists l, fold_left add_line ls acc = acc ++ l
            /\ Forall2 (fun s r => parseSignifier s = Some r) (filter f ls) l).
  { induction ls as [|s ls IH]; intros acc.
    - exists []. rewrite app_nil_r. split; [reflexivity|constructor].
    - cbn [fold_left filter].
      assert (AL : add_line acc s = if isSignifier s then match parseSignifier s with Some r => acc ++ [r] | None => acc end else acc) by reflexivity.
      assert (FL : f s = isSignifier s && match parseSignifier s with Some _ => true | None => false end) by reflexivity.
      rewrite AL, FL. destruct (isSignifier s); cbn [andb].
      + destruct (parseSignifier s) as [r|] eqn:P.
        * destruct (IH (acc ++ [r])) as (l & E & F). exists (r :: l). split; [rewrite E, <- app_assoc; reflexivity|].
          constructor; assumption.
        * exact (IH acc).
      + exact (IH acc). }
  destruct (G lines []) as (l & E & F). exists l. split; [|exact E].
  exists (filter f lines). split; [|exact F]. apply filter_chosen. exact rdf_line_iff.
Qed.

Theorem C31_signifier_tables_aligned : forall lines, exists l, records_of lines l
  /\ tables_aligned l (analyzeSignifiers lines)
  /\ length (k_noteMarks (analyzeSignifiers lines)) = length (k_noteColors (analyzeSignifiers lines))
  /\ length (k_noteMarks (analyzeSignifiers lines)) = length (k_noteDirs (analyzeSignifiers lines))
  /\ length (k_textMarks (analyzeSignifiers lines)) = length (k_textColors (analyzeSignifiers lines))
  /\ length (k_editorials (analyzeSignifiers lines)) = length (k_editorialTypes (analyzeSignifiers lines)).
Proof.
  intros lines. destruct (read_records lines) as (l & R & E). exists l. split; [exact R|].
  unfold analyzeSignifiers. rewrite E. pose proof (aligned l) as A. split; [exact A|].
  destruct A as ((a & _ & -> & F1 & F2) & (b & _ & -> & F3) & (c & _ & -> & F4)). rewrite !map_length.
  repeat split; eapply Forall2_len; eassumption.
Qed.
Print Assumptions C31_signifier_tables_aligned.

Example C31_nonvacuous :
  let k := analyzeSignifiers
    [S_ "!!!COM: Bach"; S_ "!!!RDF**kern: i = editorial accidental, brackets"; S_ "!!!RDF**kern: @ = marked note, color=blue, text=""ossia""";
     S_ "**kern"; S_ "!!!RDF**silbe: % = marked text"; S_ "!!!RDF**kern:N=matched note"; S_ "!!!RDF**kern: y = no stem, color=red"] in
  (k_noteMarks k, k_noteColors k, k_noteDirs k) = ([S_ "@"; S_ "N"], [S_ "blue,"; S_ "red"], [S_ "ossia"; []])
  /\ (k_textMarks k, k_textColors k) = ([S_ "%"], [S_ "red"])
  /\ (k_editorials k, k_editorialTypes k) = ([S_ "i"], [S_ "brack"]).
Proof. vm_compute. repeat split. Qed.

(** ** C71: switches *)

(** The words that give a signifier this meaning. *)
Definition phrases (x : switch) : list str :=
  match x with
  | NoStem => [S_ "no stem"]
  | CueSize => [S_ "cue size"]
  | HairpinAccent => [S_ "hairpin accent"]
  | VerticalStroke => [S_ "vertical stroke"]
  | TerminalLong => [S_ "terminal long"; S_ "long note"]
  | Above => [S_ "above"]
  | Below => [S_ "below"]
  | Linked => [S_ "link"]
  end.
Definition mentions_one (ws : list str) (d : str) : Prop := exists w, In w ws /\ mentions w d.
(** The value of a switch is the signifier of the last record that gives it this
    meaning, or empty. *)
Definition last_says (P : rdf -> Prop) (l : list rdf) (v : str) : Prop :=
  v = [] /\ Forall (fun r => ~ P r) l
  \/ exists l1 r l2, l = l1 ++ r :: l2 /\ P r /\ Forall (fun r => ~ P r) l2 /\ v = rd_sig r.

Theorem C71_refuted : exists lines l x, records_of lines l
  /\ ~ last_says (fun r => for_notes r /\ mentions_one (phrases x) (rd_def r)) l (k_switch (analyzeSignifiers lines) x).
Proof.
  exists [S_ "!!!RDF**kern: N = no stem, placed above"], [mkRdf (S_ "**kern") (S_ "N") (S_ "no stem, placed above")], Above.
  split.
  - exists [S_ "!!!RDF**kern: N = no stem, placed above"]. split.
    + exists []. split; [repeat constructor|]. split; [|constructor]. constructor; [|constructor].
      apply rdf_line_iff. vm_compute. reflexivity.
    + constructor; [vm_compute; reflexivity|constructor].
  - assert (K : k_switch (analyzeSignifiers [S_ "!!!RDF**kern: N = no stem, placed above"]) Above = []) by (vm_compute; reflexivity).
    rewrite K. intros [(_ & F)|(l1 & r & l2 & E & _ & _ & V)].
    + inversion F as [|? ? H _]; subst. apply H. split; [split; [reflexivity|discriminate]|].
      exists (S_ "above"). split; [left; reflexivity|]. apply contains_iff. vm_compute. reflexivity.
    + destruct l1 as [|y l1]; [injection E as <- _; discriminate|]. injection E as _ E. destruct l1; discriminate.
Qed.
Print Assumptions C71_refuted.

(** The meanings tried before. *)
Definition tried_before (x : switch) : list str :=
  match x with
  | NoStem => []
  | CueSize => [S_ "no stem"]
  | HairpinAccent => [S_ "no stem"; S_ "cue size"]
  | VerticalStroke | TerminalLong => [S_ "no stem"; S_ "cue size"; S_ "hairpin accent"]
  | Above => [S_ "no stem"; S_ "cue size"; S_ "hairpin accent"; S_ "terminal long"; S_ "long note"]
  | Below => [S_ "no stem"; S_ "cue size"; S_ "hairpin accent"; S_ "terminal long"; S_ "long note"; S_ "above"]
  | Linked => [S_ "no stem"; S_ "cue size"; S_ "hairpin accent"; S_ "terminal long"; S_ "long note"; S_ "above"; S_ "below"]
  end.
Definition gives (x : switch) (r : rdf) : Prop :=
  for_notes r /\ mentions_none (tried_before x) (rd_def r) /\ mentions_one (phrases x) (rd_def r).

Lemma sets_iff x r : sets x r = true <-> gives x r.
Proof.
  unfold sets, gives. rewrite andb_true_iff, for_notes_iff.
  assert (G : forall n ws, nth_error meanings n = Some ws ->
     (Nat.eqb (first_hit (rd_def r) meanings) n = true <-> mentions_none (words_of n) (rd_def r) /\ mentions_one ws (rd_def r))).
  { intros n ws H. rewrite Nat.eqb_eq. apply hit_at_iff. exact H. }
  destruct x; cbn [switch_rank].
  - rewrite (G 0 _ eq_refl). reflexivity.
  - rewrite (G 1 _ eq_refl). reflexivity.
  - rewrite (G 2 _ eq_refl). reflexivity.
  - rewrite andb_true_iff, Nat.leb_le, contains_iff.
    assert (L : 3 <= first_hit (rd_def r) meanings <-> mentions_none (tried_before VerticalStroke) (rd_def r)).
    { split.
      - intros H w W M. destruct (first_hit_spec (rd_def r) meanings _ eq_refl) as (A & _).
        cbn in W. remember (first_hit (rd_def r) meanings) as n. destruct n as [|[|[|n]]]; try lia.
        destruct W as [<-|[<-|[<-|[]]]].
        + apply (A [S_ "no stem"]) with (S_ "no stem"); cbn; auto.
        + apply (A [S_ "cue size"]) with (S_ "cue size"); cbn; auto.
        + apply (A [S_ "hairpin accent"]) with (S_ "hairpin accent"); cbn; auto.
      - intros H. destruct (first_hit_spec (rd_def r) meanings _ eq_refl) as (_ & B & _).
        destruct (first_hit (rd_def r) meanings) as [|[|[|n]]]; [| | |lia];
          (destruct B as (ws & E & w & W & M); [cbn; lia|]; injection E as <-; destruct W as [<-|[]]; exfalso; revert M; apply H; cbn; auto). }
    rewrite L. unfold mentions_one. cbn [phrases]. split.
    + intros (A & B & C). split; [exact A|]. split; [exact B|]. exists (S_ "vertical stroke"). split; [left; reflexivity|exact C].
    + intros (A & B & w & [<-|[]] & C). auto.
  - rewrite (G 3 _ eq_refl). reflexivity.
  - rewrite (G 4 _ eq_refl). reflexivity.
  - rewrite (G 5 _ eq_refl). reflexivity.
  - rewrite (G 6 _ eq_refl). reflexivity.
Qed.

Lemma last_says_intro f (P : rdf -> Prop) l : (forall r, f r = true <-> P r) -> last_says P l (last (map rd_sig (filter f l)) []).
Proof.
  intros E. induction l as [|r l IH]; [left; split; [reflexivity|constructor]|]. cbn [filter].
  destruct IH as [(V & F)|(l1 & z & l2 & -> & PZ & F & V)].
  - assert (N : filter f l = []).
    { clear V. induction F as [|x l H F IHF]; [reflexivity|]. cbn. destruct (f x) eqn:Q; [apply E in Q; contradiction|exact IHF]. }
    destruct (f r) eqn:Q.
    + right. exists [], r, l. split; [reflexivity|]. split; [apply E; exact Q|]. split; [exact F|]. rewrite N. reflexivity.
    + left. split; [exact V|]. constructor; [|exact F]. intros X. apply E in X. congruence.
  - right. exists (r :: l1), z, l2. split; [reflexivity|]. split; [exact PZ|]. split; [exact F|].
    rewrite <- V. destruct (f r); [|reflexivity]. cbn [map].
    rewrite filter_app. cbn [filter]. apply E in PZ. rewrite PZ, map_app. destruct (map rd_sig (filter f l1)); reflexivity.
Qed.

Theorem C71_partial : forall lines, exists l, records_of lines l
  /\ forall x, last_says (gives x) l (k_switch (analyzeSignifiers lines) x).
Proof.
  intros lines. destruct (read_records lines) as (l & R & E). exists l. split; [exact R|]. intros x.
  unfold analyzeSignifiers. rewrite E, switch_known. apply last_says_intro. apply sets_iff.
Qed.
Print Assumptions C71_partial.

Example C71_nonvacuous :
  let k := analyzeSignifiers
    [S_ "!!!RDF**kern: > = above"; S_ "!!!RDF**kern: | = vertical stroke, long note"; S_ "!!!RDF**kern: & = linked"; S_ "!!!RDF**kern: ^ = above"] in
  (k_switch k Above, k_switch k VerticalStroke, k_switch k TerminalLong, k_switch k Linked, k_switch k NoStem)
  = (S_ "^", S_ "|", S_ "|", S_ "&", []).
Proof. vm_compute. reflexivity. Qed.

(** ** C78: a record is read as written *)

Definition no_trailing_blank (d : str) : Prop := forall a c, d = a ++ [c] -> is_space c = false.
(** The line of a record, with blanks at every place where the format allows them. *)
Definition record_line (e x d sp1 sp2 sp3 sp4 sp5 : str) : str :=
  S_ "!!!RDF**" ++ e ++ sp1 ++ S_ ":" ++ sp2 ++ x ++ sp3 ++ S_ "=" ++ sp4 ++ d ++ sp5.

Theorem C78_refuted : exists e x d sp1 sp2 sp3 sp4 sp5, plain_interp e /\ plain_sig x
  /\ blank sp1 /\ blank sp2 /\ blank sp3 /\ blank sp4 /\ blank sp5 /\ no_more is_space d /\ no_trailing_blank d
  /\ parseSignifier (record_line e x d sp1 sp2 sp3 sp4 sp5) <> Some (mkRdf (S_ "**" ++ e) x d).
Proof.
  exists (S_ "kern"), (S_ "i"), (S_ "above"), [], (S_ " "), (S_ " "), (S_ " "), (S_ " ").
  split; [split; [discriminate|reflexivity]|]. split; [split; [discriminate|reflexivity]|].
  repeat (split; [reflexivity|]). split; [|vm_compute; discriminate].
  intros a c E. change (S_ "above") with (S_ "abov" ++ ["e"%char]) in E. apply app_inj_tail in E. destruct E as (_ & <-). reflexivity.
Qed.
Print Assumptions C78_refuted.

Theorem C78_partial : forall e x d sp1 sp2 sp3 sp4, plain_interp e -> plain_sig x ->
  blank sp1 -> blank sp2 -> blank sp3 -> blank sp4 -> no_more is_space d ->
  parseSignifier (record_line e x d sp1 sp2 sp3 sp4 []) = Some (mkRdf (S_ "**" ++ e) x d).
Proof. intros. unfold record_line. rewrite app_nil_r. apply parse_signifier; assumption. Qed.
Print Assumptions C78_partial.

(** A record without signifier. *)
Theorem C78_meta_partial : forall e d sp1 sp2, plain_interp e -> blank sp1 -> blank sp2 -> no_more is_space d ->
  (forall x sp r, d = x ++ sp ++ S_ "=" ++ r -> plain_sig x -> blank sp -> False) ->
  parseSignifier (S_ "!!!RDF**" ++ e ++ sp1 ++ S_ ":" ++ sp2 ++ d) = Some (mkRdf (S_ "**" ++ e) [] d).
Proof. exact parse_meta. Qed.
Print Assumptions C78_meta_partial.

Example C78_nonvacuous :
  parseSignifier (record_line (S_ "kern") (S_ "ZZ") (S_ "marked note, color=#ff0000") (S_ " ") (S_ "  ") [] (S_ " ") [])
  = Some (mkRdf (S_ "**kern") (S_ "ZZ") (S_ "marked note, color=#ff0000"))
  /\ parseSignifier (S_ "!!!RDF**kern: show spaces color=hotpink") = Some (mkRdf (S_ "**kern") [] (S_ "show spaces color=hotpink")).
Proof. vm_compute. split; reflexivity. Qed.

(** ** C79: the colour of a note *)

(** The first record whose mark stands in the token. *)
Definition first_marked (rs : list rdf) (tstring : str) (r : rdf) : Prop :=
  exists r1 r2, rs = r1 ++ r :: r2 /\ mentions (rd_sig r) tstring /\ Forall (fun z => ~ mentions (rd_sig z) tstring) r1.

Lemma mark_color_spec t : forall rs cs, Forall2 note_colour_of rs cs ->
  (exists r c, first_marked rs t r /\ note_colour_of r c /\ mark_color t (map rd_sig rs) cs = Some (Some c))
  \/ Forall (fun r => ~ mentions (rd_sig r) t) rs /\ mark_color t (map rd_sig rs) cs = Some None.
Proof.
  induction 1 as [|r c rs cs H F IH]; [right; split; [constructor|reflexivity]|]. cbn [map mark_color].
  destruct (contains (rd_sig r) t) eqn:C.
  - left. exists r, c. split; [|split; [exact H|reflexivity]]. exists [], rs. split; [reflexivity|].
    split; [apply contains_iff; exact C|constructor].
  - apply contains_false in C. cbn [tl]. destruct IH as [(z & d & (r1 & r2 & -> & M & N) & D & E)|(N & E)].
    + left. exists z, d. split; [|split; assumption]. exists (r :: r1), r2. split; [reflexivity|]. split; [exact M|constructor; assumption].
    + right. split; [constructor; assumption|exact E].
Qed.

Theorem C79_marked_note_colour : forall lines spine tstring, exists l rs, records_of lines l /\ chosen marks_notes l rs
  /\ ((exists r c, first_marked rs tstring r /\ note_colour_of r c
        /\ colorNote (analyzeSignifiers lines) spine tstring = Some (Some c))
      \/ Forall (fun r => ~ mentions (rd_sig r) tstring) rs
        /\ colorNote (analyzeSignifiers lines) spine tstring = Some spine).
Proof.
  intros lines spine t. destruct (read_records lines) as (l & R & E). destruct (aligned l) as ((rs & CH & M & F & _) & _).
  exists l, rs. split; [exact R|]. split; [exact CH|]. unfold analyzeSignifiers, colorNote. rewrite E, M.
  destruct (mark_color_spec t rs _ F) as [(r & c & A & B & Q)|(A & Q)]; rewrite Q; [left|right; auto].
  exists r, c. auto.
Qed.
Print Assumptions C79_marked_note_colour.

Example C79_nonvacuous :
  let k := analyzeSignifiers [S_ "!!!RDF**kern: i = marked note"; S_ "!!!RDF**kern: @ = color=blue"; S_ "!!!RDF**kern: N = no stem"] in
  colorNote k (Some (S_ "green")) (S_ "4c@i") = Some (Some (S_ "red"))
  /\ colorNote k (Some (S_ "green")) (S_ "4c@") = Some (Some (S_ "blue"))
  /\ colorNote k (Some (S_ "green")) (S_ "4cN") = Some (Some (S_ "green")).
Proof. vm_compute. repeat split. Qed.

(** ** C80: a marked word loses its mark *)

(** Every occurrence of [m], from the left, taken out. *)
Inductive without (m : str) : str -> str -> Prop :=
| wo_none : forall s, ~ mentions m s -> without m s s
| wo_first : forall a b t, (forall a1 b1, a ++ m ++ b = a1 ++ m ++ b1 -> length a <= length a1) ->
    without m b t -> without m (a ++ m ++ b) (a ++ t).

Definition verse_shown (rs : list rdf) (text : str) (out : option (option str * str)) : Prop :=
  (exists r c t, first_marked rs text r /\ text_colour_of r c /\ without (rd_sig r) text t /\ out = Some (Some c, t))
  \/ Forall (fun r => ~ mentions (rd_sig r) text) rs /\ out = Some (None, text).

Theorem C80_refuted : exists lines l rs text, records_of lines l /\ chosen marks_text l rs
  /\ ~ verse_shown rs text (verse_color (analyzeSignifiers lines) text).
Proof.
  set (L := S_ "!!!RDF**text: . = marked text"). set (r := mkRdf (S_ "**text") (S_ ".") (S_ "marked text")).
  exists [L], [r], [r], (S_ "Je.su").
  split; [|split].
  - exists [L]. split.
    + exists []. split; [repeat constructor|]. split; [|constructor]. constructor; [|constructor].
      apply rdf_line_iff. vm_compute. reflexivity.
    + constructor; [vm_compute; reflexivity|constructor].
  - exists []. split; [repeat constructor|]. split; [|constructor]. constructor; [|constructor].
    apply is_text_iff. vm_compute. reflexivity.
  - assert (K : verse_color (analyzeSignifiers [L]) (S_ "Je.su") = Some (Some (S_ "red"), [])) by (vm_compute; reflexivity).
    rewrite K. intros [(z & c & t & (r1 & r2 & E & _ & _) & _ & W & Q)|(_ & Q)]; [|discriminate].
    injection Q as _ <-.
    assert (Z : z = r) by (destruct r1 as [|y r1]; [injection E as <- _; reflexivity|injection E as _ E; destruct r1; discriminate]).
    subst z. inversion W as [? ? E1 E2|a b t0 _ _ E1 E2].
    apply app_eq_nil in E2. destruct E2 as (-> & _). cbn in E1. discriminate.
Qed.
Print Assumptions C80_refuted.

Lemma remove_without m : m <> [] -> forall n s, length s <= n -> without m s (remove_all n m s).
Proof.
  intros NE. induction n as [|n IH]; intros s LE.
  - destruct s; [|cbn in LE; lia]. cbn. apply wo_none. intros (a & b & E). symmetry in E.
    apply app_eq_nil in E. destruct E as (_ & E). apply app_eq_nil in E. tauto.
  - destruct s as [|c s].
    + cbn. apply wo_none. intros (a & b & E). symmetry in E. apply app_eq_nil in E. destruct E as (_ & E). apply app_eq_nil in E. tauto.
    + cbn [remove_all]. destruct (starts_with m (c :: s)) eqn:ST.
      * apply starts_iff in ST. destruct ST as (b & E). rewrite E. rewrite skipn_app, skipn_all, Nat.sub_diag. cbn [app skipn].
        apply (wo_first m [] b); [intros; cbn; lia|]. apply IH.
        assert (LL : length (c :: s) = length m + length b) by (rewrite E, app_length; reflexivity).
        destruct m; [contradiction|]. cbn in LL, LE. lia.
      * assert (L2 : length s <= n) by (cbn in LE; lia). specialize (IH s L2).
        assert (NS : forall b, c :: s <> m ++ b).
        { intros b E. assert (X : starts_with m (c :: s) = true) by (apply starts_iff; eauto). congruence. }
        revert IH. generalize (remove_all n m s). intros o IH. inversion IH as [? N E1 E2|a b t FO W E1 E2].
        -- subst. apply wo_none. intros (a & b & E). destruct a as [|x a]; [exact (NS b E)|].
           injection E as _ E. apply N. exists a, b. exact E.
        -- subst s. apply (wo_first m (c :: a) b); [|exact W]. intros a1 b1 E. destruct a1 as [|x a1]; [destruct (NS b1 E)|].
           injection E as _ E. cbn. apply le_n_S. exact (FO a1 b1 E).
Qed.
Lemma single_remove c : forall n s, length s <= n -> remove_all n [c] s = filter (fun x => negb (Ascii.eqb x c)) s.
Proof.
  induction n as [|n IH]; intros s LE; [destruct s; [reflexivity|cbn in LE; lia]|].
  destruct s as [|x s]; [reflexivity|]. cbn [remove_all starts_with length skipn filter]. rewrite andb_true_r, Ascii.eqb_sym.
  cbn in LE. destruct (Ascii.eqb x c); cbn [negb]; rewrite IH by lia; reflexivity.
Qed.

Lemma sub_mark_spec m s : m <> [] -> forallb plain_char m = true -> exists t, sub_mark m s = Some t /\ without m s t.
Proof.
  intros NE P. exists (remove_all (length s) m s). split; [|apply remove_without; [exact NE|reflexivity]].
  destruct m as [|c [|d m]]; [contradiction| |].
  - unfold sub_mark. cbn [forallb] in P. rewrite andb_true_r in P. rewrite single_remove by reflexivity.
    unfold plain_char in P. apply negb_true_iff in P.
    assert (A : char_in c (S_ "*+?([\)") = false /\ Ascii.eqb c "."%char = false /\ char_in c (S_ "^$|") = false).
    { revert P. unfold char_in. cbn [existsb S_ list_ascii_of_string].
      rewrite !orb_false_iff. intuition. }
    destruct A as (-> & -> & ->). reflexivity.
  - unfold sub_mark. rewrite P. reflexivity.
Qed.

Theorem C80_partial : forall lines text, exists l rs, records_of lines l /\ chosen marks_text l rs
  /\ (Forall (fun r => forallb plain_char (rd_sig r) = true) rs -> verse_shown rs text (verse_color (analyzeSignifiers lines) text)).
Proof.
  intros lines text. destruct (read_records lines) as (l & R & E). destruct (aligned l) as (_ & (rs & CH & M & F) & _).
  exists l, rs. split; [exact R|]. split; [exact CH|]. unfold verse_color, analyzeSignifiers. rewrite E, M.
  destruct CH as (_ & _ & G & _). revert G. generalize dependent (k_textColors (generateKnownInfo l)). clear.
  intros cs F. induction F as [|r c rs cs H F IH]; intros G P; [right; split; [constructor|reflexivity]|].
  inversion G as [|? ? G1 G2]; subst. inversion P as [|? ? P1 P2]; subst. cbn [map zip colorVerse].
  destruct (contains (rd_sig r) text) eqn:C.
  - left. destruct G1 as ((_ & NE) & _). destruct (sub_mark_spec (rd_sig r) text NE P1) as (t & T & W). exists r, c, t.
    rewrite T. split; [|auto]. exists [], rs. split; [reflexivity|]. split; [apply contains_iff; exact C|constructor].
  - apply contains_false in C. destruct (IH G2 P2) as [(z & d & t & (r1 & r2 & -> & M & N) & D & W & Q)|(N & Q)].
    + left. exists z, d, t. split; [|auto]. exists (r :: r1), r2. split; [reflexivity|]. split; [exact M|constructor; assumption].
    + right. split; [constructor; assumption|exact Q].
Qed.
Print Assumptions C80_partial.

Example C80_nonvacuous :
  let k := analyzeSignifiers [S_ "!!!RDF**silbe: i = marked text"; S_ "!!!RDF**text: %% = matched text color=""blue"""] in
  verse_color k (S_ "glo%%%%-%%%") = Some (Some (S_ "blue"), S_ "glo-%")
  /\ verse_color k (S_ "glo%-") = Some (None, S_ "glo%-").
Proof. vm_compute. split; reflexivity. Qed.
