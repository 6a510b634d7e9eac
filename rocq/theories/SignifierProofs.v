(** Lemmas about user signifiers. *)
From Coq Require Import Lia.
From Verif Require Import PyStr PyStrProofs LayoutModel BarModel SignifierModel.

(** ** Patterns *)

(** [word] occurs in [d]. *)
Definition mentions (word d : str) : Prop := exists a b, d = a ++ word ++ b.

Lemma starts_iff p : forall s, starts_with p s = true <-> exists t, s = p ++ t.
Proof.
  induction p as [|c p IH]; intros s; cbn.
  - split; [intros _; exists s; reflexivity|reflexivity].
  - destruct s as [|d s]; [split; [discriminate|intros (t & E); discriminate]|].
    rewrite andb_true_iff, Ascii.eqb_eq, IH. split.
    + intros (-> & t & ->). exists t. reflexivity.
    + intros (t & E). injection E as -> ->. eauto.
Qed.
Lemma contains_iff w : forall d, contains w d = true <-> mentions w d.
Proof.
  induction d as [|c d IH].
  - cbn [contains]. rewrite orb_false_r, starts_iff. split.
    + intros (t & E). exists [], t. exact E.
    + intros (a & b & E). destruct a; [exists b; exact E|discriminate].
  - cbn [contains]. rewrite orb_true_iff, starts_iff, IH. split.
    + intros [(t & E)|(a & b & E)]; [exists [], t; exact E|exists (c :: a), b; rewrite E; reflexivity].
    + intros (a & b & E). destruct a as [|x a]; [left; exists b; exact E|right].
      injection E as -> ->. exists a, b. reflexivity.
Qed.
Lemma contains_false w d : contains w d = false <-> ~ mentions w d.
Proof. rewrite <- contains_iff. destruct (contains w d); split; congruence. Qed.

(** The first place a pattern matches. *)
Definition first_match {A} (here : str -> A -> Prop) (s : str) (x : A) : Prop :=
  exists a b, s = a ++ b /\ here b x
    /\ forall a1 b1 y, s = a1 ++ b1 -> length a1 < length a -> ~ here b1 y.

Lemma search_iff {A} (m : str -> option A) (here : str -> A -> Prop) :
  (forall s x, m s = Some x <-> here s x) -> forall s x, search m s = Some x <-> first_match here s x.
Proof.
  intros E. induction s as [|c s IH]; intros x; cbn [search].
  - destruct (m []) as [y|] eqn:M.
    + split.
      * intros H. injection H as <-. exists [], []. split; [reflexivity|]. split; [apply E; exact M|]. cbn. intros; lia.
      * intros (a & b & F & H & _). destruct a; [|discriminate]. cbn in F. subst b. apply E in H. congruence.
    + split; [discriminate|]. intros (a & b & F & H & _). destruct a; [|discriminate]. cbn in F. subst b. apply E in H. congruence.
  - destruct (m (c :: s)) as [y|] eqn:M.
    + split.
      * intros H. injection H as <-. exists [], (c :: s). split; [reflexivity|]. split; [apply E; exact M|]. cbn. intros; lia.
      * intros (a & b & F & H & L). destruct a as [|z a].
        -- cbn in F. subst b. apply E in H. congruence.
        -- exfalso. apply (L [] (c :: s) y); [reflexivity|cbn; lia|apply E; exact M].
    + rewrite IH. split.
      * intros (a & b & -> & H & L). exists (c :: a), b. split; [reflexivity|]. split; [exact H|].
        intros a1 b1 y F LL Y. destruct a1 as [|z a1].
        -- cbn in F. subst b1. apply E in Y. congruence.
        -- injection F as <- F. apply (L a1 b1 y F); [cbn in LL; lia|exact Y].
      * intros (a & b & F & H & L). destruct a as [|z a].
        -- cbn in F. subst b. apply E in H. congruence.
        -- injection F as <- F. exists a, b. split; [exact F|]. split; [exact H|].
           intros a1 b1 y F1 LL. apply (L (c :: a1) b1 y); [rewrite F1; reflexivity|cbn; lia].
Qed.
Lemma search_none {A} (m : str -> option A) (here : str -> A -> Prop) :
  (forall s x, m s = Some x <-> here s x) -> forall s, search m s = None <-> forall a b x, s = a ++ b -> ~ here b x.
Proof.
  intros E. induction s as [|c s IH]; cbn [search].
  - destruct (m []) as [y|] eqn:M.
    + split; [discriminate|]. intros H. destruct (H [] [] y eq_refl). apply E. exact M.
    + split; [|reflexivity]. intros _ a b x F. destruct a; [|discriminate]. cbn in F. subst b. intros H. apply E in H. congruence.
  - destruct (m (c :: s)) as [y|] eqn:M.
    + split; [discriminate|]. intros H. destruct (H [] (c :: s) y eq_refl). apply E. exact M.
    + rewrite IH. split.
      * intros H a b x F. destruct a as [|z a]; [cbn in F; subst b; intros Y; apply E in Y; congruence|].
        injection F as _ F. exact (H a b x F).
      * intros H a b x F. apply (H (c :: a) b x). rewrite F. reflexivity.
Qed.

Lemma lit_iff w : forall s r, lit w s = Some r <-> s = w ++ r.
Proof.
  induction w as [|c w IH]; intros s r; cbn; [split; congruence|].
  destruct s as [|x s]; [split; [discriminate|intros E; discriminate]|].
  destruct (Ascii.eqb c x) eqn:Q.
  - apply Ascii.eqb_eq in Q. subst x. rewrite IH. split; [intros ->; reflexivity|intros E; injection E as ->; reflexivity].
  - split; [discriminate|]. intros E. injection E as -> _. rewrite Ascii.eqb_refl in Q. discriminate.
Qed.

Definition blank (s : str) : Prop := forallb is_space s = true.
(** [s] does not begin with a character of [p]. *)
Definition no_more (p : ascii -> bool) (s : str) : Prop := match s with [] => True | c :: _ => p c = false end.

Lemma span_iff p s a b : span p s = (a, b) <-> s = a ++ b /\ forallb p a = true /\ no_more p b.
Proof.
  split.
  - intros E. pose proof (span_join p s) as J. pose proof (span_fst_all p s) as F. pose proof (span_snd_head p s) as H.
    rewrite E in *. cbn in *. split; [symmetry; exact J|]. split; [exact F|exact H].
  - intros (-> & F & N). revert F N. induction a as [|c a IH]; intros F N.
    + cbn [app]. destruct b as [|c b]; [reflexivity|]. cbn in *. rewrite N. reflexivity.
    + cbn in *. apply andb_true_iff in F. destruct F as (F1 & F2). rewrite F1, (IH F2 N). reflexivity.
Qed.
Lemma spaces_app sp r : blank sp -> no_more is_space r -> spaces (sp ++ r) = (sp, r).
Proof. intros B N. apply span_iff. auto. Qed.
Lemma skip_app sp r : blank sp -> no_more is_space r -> skip_spaces (sp ++ r) = r.
Proof. intros B N. unfold skip_spaces. rewrite spaces_app by assumption. reflexivity. Qed.
Lemma skip_none r : no_more is_space r -> skip_spaces r = r.
Proof. intros N. exact (skip_app [] r eq_refl N). Qed.
Lemma skip_split s : exists sp, s = sp ++ skip_spaces s /\ blank sp /\ no_more is_space (skip_spaces s).
Proof.
  unfold skip_spaces, spaces. destruct (span is_space s) as (sp, r) eqn:E. apply span_iff in E. exists sp. exact E.
Qed.

Definition quote_mark (q : str) : Prop := q = [] \/ q = [dquote].

(** A word, an equals sign and a value. *)
Definition says (word s v : str) : Prop :=
  exists sp1 sp2 q sp3 rest, s = word ++ sp1 ++ S_ "=" ++ sp2 ++ q ++ sp3 ++ v ++ rest
    /\ blank sp1 /\ blank sp2 /\ quote_mark q /\ blank sp3
    /\ v <> [] /\ forallb value_char v = true /\ no_more value_char rest.

Lemma value_not_space c : value_char c = true -> is_space c = false.
Proof. unfold value_char. rewrite andb_true_iff, !negb_true_iff. tauto. Qed.
Lemma value_not_quote c : value_char c = true -> Ascii.eqb c dquote = false.
Proof. unfold value_char. rewrite andb_true_iff, !negb_true_iff. tauto. Qed.
Lemma value_start v rest : v <> [] -> forallb value_char v = true ->
  no_more is_space (v ++ rest) /\ opt_quote (v ++ rest) = v ++ rest.
Proof.
  intros N F. destruct v as [|c v]; [contradiction|]. cbn in F. apply andb_true_iff in F. destruct F as (F & _). cbn.
  rewrite (value_not_quote c F). split; [exact (value_not_space c F)|reflexivity].
Qed.

Lemma eq_no_space : is_space "="%char = false. Proof. reflexivity. Qed.
Lemma quote_no_space : is_space dquote = false. Proof. reflexivity. Qed.

Lemma opt_quote_split s : exists q, s = q ++ opt_quote s /\ quote_mark q.
Proof.
  destruct s as [|c s]; [exists []; split; [reflexivity|left; reflexivity]|]. cbn. destruct (Ascii.eqb c dquote) eqn:E.
  - apply Ascii.eqb_eq in E. subst c. exists [dquote]. split; [reflexivity|right; reflexivity].
  - exists []. split; [reflexivity|left; reflexivity].
Qed.

Lemma value_iff word s v : value_here word s = Some v <-> says word s v.
Proof.
  unfold value_here. split.
  - destruct (lit word s) as [s1|] eqn:L; [|discriminate]. apply lit_iff in L. subst s.
    destruct (skip_split s1) as (sp1 & E1 & B1 & _). destruct (skip_spaces s1) as [|c s2]; [discriminate|].
    destruct (Ascii.eqb c "="%char) eqn:C; [|discriminate]. apply Ascii.eqb_eq in C. subst c.
    destruct (skip_split s2) as (sp2 & E2 & B2 & _). destruct (opt_quote_split (skip_spaces s2)) as (q & E3 & Q).
    destruct (skip_split (opt_quote (skip_spaces s2))) as (sp3 & E4 & B3 & _).
    destruct (span value_char (skip_spaces (opt_quote (skip_spaces s2)))) as (w, rest) eqn:SP.
    apply span_iff in SP. destruct SP as (E5 & F & N).
    destruct w as [|x w]; [discriminate|]. intros H. injection H as <-.
    exists sp1, sp2, q, sp3, rest. split.
    + f_equal. rewrite E1. f_equal. change (S_ "=" ++ ?z) with ("="%char :: z). f_equal.
      rewrite E2 at 1. f_equal. rewrite E3 at 1. f_equal. rewrite E4 at 1. f_equal. exact E5.
    + split; [exact B1|]. split; [exact B2|]. split; [exact Q|]. split; [exact B3|]. split; [discriminate|]. split; assumption.
  - intros (sp1 & sp2 & q & sp3 & rest & -> & B1 & B2 & Q & B3 & NV & F & N).
    assert (L : lit word (word ++ sp1 ++ S_ "=" ++ sp2 ++ q ++ sp3 ++ v ++ rest) = Some (sp1 ++ S_ "=" ++ sp2 ++ q ++ sp3 ++ v ++ rest))
      by (apply lit_iff; reflexivity).
    rewrite L, (skip_app sp1) by (exact B1 || exact eq_no_space).
    change (S_ "=" ++ sp2 ++ q ++ sp3 ++ v ++ rest) with ("="%char :: sp2 ++ q ++ sp3 ++ v ++ rest). cbv beta iota. rewrite (Ascii.eqb_refl "="%char).
    destruct (value_start v rest NV F) as (V1 & V2).
    assert (K : skip_spaces (opt_quote (skip_spaces (sp2 ++ q ++ sp3 ++ v ++ rest))) = v ++ rest).
    { destruct Q as [->| ->].
      - cbn [app]. rewrite app_assoc, skip_app; [rewrite V2; apply skip_none; exact V1| |exact V1].
        unfold blank. rewrite forallb_app, B2, B3. reflexivity.
      - rewrite skip_app; [|exact B2|exact quote_no_space]. cbn [app opt_quote]. rewrite Ascii.eqb_refl.
        apply skip_app; assumption. }
    rewrite K. assert (SP : span value_char (v ++ rest) = (v, rest)) by (apply span_iff; auto).
    rewrite SP. destruct v; [contradiction|reflexivity].
Qed.

(** What [word] is said to be in a definition: at its first place. *)
Definition value_of (word d v : str) : Prop := first_match (says word) d v.
Definition no_value (word d : str) : Prop := forall a b v, d = a ++ b -> ~ says word b v.

Lemma find_value_iff word d v : find_value word d = Some v <-> value_of word d v.
Proof. apply search_iff. intros. apply value_iff. Qed.
Lemma find_value_none word d : find_value word d = None <-> no_value word d.
Proof. apply search_none. intros. apply value_iff. Qed.

(** ** Records *)

Definition plain_interp (e : str) : Prop := e <> [] /\ forallb interp_char e = true.
Definition plain_sig (x : str) : Prop := x <> [] /\ forallb sig_char x = true.

Lemma colon_no_interp : interp_char ":"%char = false. Proof. reflexivity. Qed.
Lemma eq_no_sig : sig_char "="%char = false. Proof. reflexivity. Qed.
Lemma interp_not_space c : interp_char c = true -> is_space c = false.
Proof. unfold interp_char. rewrite andb_true_iff, !negb_true_iff. tauto. Qed.
Lemma sig_not_space c : sig_char c = true -> is_space c = false.
Proof. unfold sig_char. rewrite andb_true_iff, !negb_true_iff. tauto. Qed.
Lemma sig_start x rest : plain_sig x -> no_more is_space (x ++ rest).
Proof.
  intros (N & F). destruct x as [|c x]; [contradiction|]. cbn in F. apply andb_true_iff in F. destruct F as (F & _). cbn.
  apply sig_not_space. exact F.
Qed.
Lemma blank_no_more sp c r p : blank sp -> (forall x, is_space x = true -> p x = false) -> p c = false ->
  no_more p (sp ++ c :: r).
Proof.
  intros B H C. destruct sp as [|x sp]; [exact C|]. cbn in B. apply andb_true_iff in B. cbn. apply H. tauto.
Qed.

Lemma search_here {A} (m : str -> option A) s x : m s = Some x -> search m s = Some x.
Proof. intros H. destruct s; cbn; rewrite H; reflexivity. Qed.

Theorem parse_record e sp1 sp2 v : plain_interp e -> blank sp1 -> blank sp2 -> no_more is_space v ->
  search record_here (S_ "!!!RDF**" ++ e ++ sp1 ++ S_ ":" ++ sp2 ++ v) = Some (S_ "**" ++ e, v).
Proof.
  intros (NE & F) B1 B2 NV. apply search_here. unfold record_here.
  assert (L : forall z, lit (S_ "!!!RDF**") (S_ "!!!RDF**" ++ z) = Some z) by (intros; apply lit_iff; reflexivity).
  rewrite L. change (S_ ":" ++ sp2 ++ v) with (":"%char :: sp2 ++ v).
  assert (SP : span interp_char (e ++ sp1 ++ ":"%char :: sp2 ++ v) = (e, sp1 ++ ":"%char :: sp2 ++ v)).
  { apply span_iff. split; [reflexivity|]. split; [exact F|]. apply blank_no_more; [exact B1| |reflexivity].
    intros x X. unfold interp_char. rewrite X. reflexivity. }
  rewrite SP. destruct e as [|c e]; [contradiction|].
  rewrite skip_app; [|exact B1|reflexivity]. cbv beta iota. rewrite (Ascii.eqb_refl ":"%char), skip_app by assumption. reflexivity.
Qed.

Theorem parse_signifier e x d sp1 sp2 sp3 sp4 :
  plain_interp e -> plain_sig x -> blank sp1 -> blank sp2 -> blank sp3 -> blank sp4 -> no_more is_space d ->
  parseSignifier (S_ "!!!RDF**" ++ e ++ sp1 ++ S_ ":" ++ sp2 ++ x ++ sp3 ++ S_ "=" ++ sp4 ++ d)
  = Some (mkRdf (S_ "**" ++ e) x d).
Proof.
  intros PE PX B1 B2 B3 B4 ND. unfold parseSignifier.
  rewrite parse_record; [|exact PE|exact B1|exact B2|apply sig_start; exact PX].
  unfold sig_def. rewrite skip_none by (apply sig_start; exact PX).
  change (S_ "=" ++ sp4 ++ d) with ("="%char :: sp4 ++ d).
  assert (SP : span sig_char (x ++ sp3 ++ "="%char :: sp4 ++ d) = (x, sp3 ++ "="%char :: sp4 ++ d)).
  { apply span_iff. split; [reflexivity|]. split; [apply PX|]. apply blank_no_more; [exact B3| |reflexivity].
    intros y Y. unfold sig_char. rewrite Y. reflexivity. }
  rewrite SP. destruct x as [|c x]; [destruct PX; contradiction|].
  rewrite skip_app; [|exact B3|reflexivity]. cbv beta iota. rewrite (Ascii.eqb_refl "="%char), skip_app by assumption. reflexivity.
Qed.

(** A definition without equals sign after its first word. *)
Theorem parse_meta e d sp1 sp2 : plain_interp e -> blank sp1 -> blank sp2 -> no_more is_space d ->
  (forall x sp r, d = x ++ sp ++ S_ "=" ++ r -> plain_sig x -> blank sp -> False) ->
  parseSignifier (S_ "!!!RDF**" ++ e ++ sp1 ++ S_ ":" ++ sp2 ++ d) = Some (mkRdf (S_ "**" ++ e) [] d).
Proof.
  intros PE B1 B2 ND H. unfold parseSignifier. rewrite parse_record by assumption.
  assert (K : sig_def d = None).
  { unfold sig_def. rewrite skip_none by exact ND. destruct (span sig_char d) as (x, s1) eqn:SP.
    destruct x as [|c x]; [reflexivity|]. destruct (skip_split s1) as (sp & E & B & _).
    destruct (skip_spaces s1) as [|z s2]; [reflexivity|]. destruct (Ascii.eqb z "="%char) eqn:Z; [|reflexivity].
    apply Ascii.eqb_eq in Z. subst z. apply span_iff in SP. destruct SP as (-> & F & _). exfalso.
    apply (H (c :: x) sp s2); [rewrite E; reflexivity|split; [discriminate|exact F]|exact B]. }
  rewrite K, skip_none by exact ND. reflexivity.
Qed.

(** ** Learning *)

Definition kern : str := S_ "**kern".
(** A record that gives a meaning to a signifier of notes. *)
Definition for_notes (r : rdf) : Prop := rd_interp r = kern /\ rd_sig r <> [].
Definition for_text (r : rdf) : Prop := (rd_interp r = S_ "**silbe" \/ rd_interp r = S_ "**text") /\ rd_sig r <> [].

Definition for_notesb (r : rdf) : bool := str_eqb (rd_interp r) kern && negb (str_eqb (rd_sig r) []).
Definition for_textb (r : rdf) : bool :=
  (str_eqb (rd_interp r) (S_ "**silbe") || str_eqb (rd_interp r) (S_ "**text")) && negb (str_eqb (rd_sig r) []).
Lemma for_notes_iff r : for_notesb r = true <-> for_notes r.
Proof. unfold for_notesb, for_notes. rewrite andb_true_iff, negb_true_iff, str_eqb_eq, str_eqb_neq. reflexivity. Qed.
Lemma for_text_iff r : for_textb r = true <-> for_text r.
Proof. unfold for_textb, for_text. rewrite andb_true_iff, orb_true_iff, negb_true_iff, !str_eqb_eq, str_eqb_neq. reflexivity. Qed.

(** What a record does, by its kind. *)
Lemma learn_notes k r : for_notesb r = true -> learn k r = kern_record (rd_sig r) (rd_def r) k.
Proof.
  intros H. unfold for_notesb in H. apply andb_true_iff in H. destruct H as (K & S). apply negb_true_iff in S.
  unfold learn. rewrite S. cbn [andb]. apply str_eqb_eq in K. rewrite K. reflexivity.
Qed.
Lemma learn_text k r : for_textb r = true -> learn k r = text_record (rd_sig r) (rd_def r) k.
Proof.
  intros H. unfold for_textb in H. apply andb_true_iff in H. destruct H as (K & S). apply negb_true_iff in S.
  unfold learn. rewrite S. cbn [andb]. rewrite K. reflexivity.
Qed.
Lemma learn_other k r : for_notesb r = false -> for_textb r = false ->
  learn k r = k \/ learn k r = meta_record (rd_def r) k \/ learn k r = dynam_record (rd_sig r) (rd_def r) k.
Proof.
  unfold for_notesb, for_textb, learn. fold kern. intros N T. destruct (str_eqb (rd_sig r) []); cbn [andb negb] in *.
  - destruct (str_eqb (rd_interp r) kern); auto.
  - rewrite andb_true_r in N, T. rewrite N, T. destruct (str_eqb (rd_interp r) (S_ "**dynam")); auto.
Qed.

Lemma meta_frame d k : let k' := meta_record d k in
  k_textMarks k' = k_textMarks k /\ k_textColors k' = k_textColors k /\ k_noteMarks k' = k_noteMarks k
  /\ k_noteColors k' = k_noteColors k /\ k_noteDirs k' = k_noteDirs k /\ k_switch k' = k_switch k
  /\ k_editorials k' = k_editorials k /\ k_editorialTypes k' = k_editorialTypes k.
Proof.
  unfold meta_record. cbv zeta.
  destruct (contains (S_ "show space") d); [repeat split|].
  destruct (contains (S_ "show invisible rest") d); [repeat split|].
  destruct (contains (S_ "show implicit space") d); [repeat split|].
  destruct (contains (S_ "show recip space") d); repeat split.
Qed.
Lemma dynam_frame x d k : let k' := dynam_record x d k in
  k_textMarks k' = k_textMarks k /\ k_textColors k' = k_textColors k /\ k_noteMarks k' = k_noteMarks k
  /\ k_noteColors k' = k_noteColors k /\ k_noteDirs k' = k_noteDirs k /\ k_switch k' = k_switch k
  /\ k_editorials k' = k_editorials k /\ k_editorialTypes k' = k_editorialTypes k.
Proof.
  unfold dynam_record, hair_record. cbv zeta.
  destruct (str_eqb x (S_ ">")), (str_eqb x (S_ "<"));
    destruct (match search quoted_here d with Some t => Some t | None => search word_here d end); repeat split.
Qed.
Lemma text_frame x d k : let k' := text_record x d k in
  k_noteMarks k' = k_noteMarks k
  /\ k_noteColors k' = k_noteColors k /\ k_noteDirs k' = k_noteDirs k /\ k_switch k' = k_switch k
  /\ k_editorials k' = k_editorials k /\ k_editorialTypes k' = k_editorialTypes k.
Proof.
  unfold text_record. cbv zeta. destruct (contains (S_ "marked text") d || contains (S_ "matched text") d); repeat split.
Qed.

(** A record for notes: its meanings in the order they are tried; a vertical stroke does not
    exclude another. *)
Definition meanings : list (list str) :=
  [[S_ "no stem"]; [S_ "cue size"]; [S_ "hairpin accent"]; [S_ "terminal long"; S_ "long note"]; [S_ "above"]; [S_ "below"];
   [S_ "link"]; [S_ "editorial accidental"]; [S_ "phrase"]].
Definition hit (d : str) (ws : list str) : bool := existsb (fun w => contains w d) ws.
(** Number of meanings passed before the first that fits. *)
Fixpoint first_hit (d : str) (l : list (list str)) : nat :=
  match l with [] => 0 | ws :: r => if hit d ws then 0 else S (first_hit d r) end.

Lemma kern_cases x d k :
  let k1 := if contains (S_ "vertical stroke") d then set_switch VerticalStroke x k else k in
  kern_record x d k =
  match first_hit d meanings with
  | 0 => set_switch NoStem x k
  | 1 => set_switch CueSize x k
  | 2 => set_switch HairpinAccent x k
  | 3 => set_switch TerminalLong x k1
  | 4 => set_switch Above x k1
  | 5 => set_switch Below x k1
  | 6 => set_switch Linked x k1
  | 7 => add_editorial x (editorial_type d) k1
  | 8 => set_phrase (phrase_style d) (contains (S_ "slur") d) (find_value (S_ "color") d) k1
  | _ => note_record x d k1
  end.
Proof.
  unfold kern_record, kern_rest. cbv zeta. cbn [first_hit meanings hit existsb].
  rewrite !orb_false_r.
  destruct (contains (S_ "no stem") d); [reflexivity|].
  destruct (contains (S_ "cue size") d); [reflexivity|].
  destruct (contains (S_ "hairpin accent") d); [reflexivity|].
  destruct (contains (S_ "terminal long") d || contains (S_ "long note") d); [reflexivity|].
  destruct (contains (S_ "above") d); [reflexivity|].
  destruct (contains (S_ "below") d); [reflexivity|].
  destruct (contains (S_ "link") d); [reflexivity|].
  destruct (contains (S_ "editorial accidental") d); [reflexivity|].
  destruct (contains (S_ "phrase") d); reflexivity.
Qed.

Lemma stroke_frame x d k : let k' := if contains (S_ "vertical stroke") d then set_switch VerticalStroke x k else k in
  k_textMarks k' = k_textMarks k /\ k_textColors k' = k_textColors k /\ k_noteMarks k' = k_noteMarks k
  /\ k_noteColors k' = k_noteColors k /\ k_noteDirs k' = k_noteDirs k
  /\ k_editorials k' = k_editorials k /\ k_editorialTypes k' = k_editorialTypes k.
Proof. cbv zeta. destruct (contains (S_ "vertical stroke") d); repeat split. Qed.

(** None of the words of the first [n] meanings, and one of the next. *)
Lemma first_hit_spec d : forall l n, first_hit d l = n ->
  (forall ws, In ws (firstn n l) -> forall w, In w ws -> ~ mentions w d)
  /\ (n < length l -> exists ws, nth_error l n = Some ws /\ exists w, In w ws /\ mentions w d) /\ n <= length l.
Proof.
  assert (HT : forall ws, hit d ws = true <-> exists w, In w ws /\ mentions w d).
  { intros ws. unfold hit. rewrite existsb_exists. setoid_rewrite contains_iff. reflexivity. }
  induction l as [|ws l IH]; intros n E; cbn in E.
  - subst n. split; [intros ? []|]. split; cbn; lia.
  - destruct (hit d ws) eqn:H.
    + subst n. split; [intros ? []|]. split; [|cbn; lia]. intros _. exists ws. split; [reflexivity|]. apply HT. exact H.
    + subst n. destruct (IH _ eq_refl) as (A & B & C). split; [|split].
      * intros vs [<-|I] w W M; [|exact (A vs I w W M)].
        assert (X : hit d ws = true) by (apply HT; eauto). congruence.
      * cbn. intros L. apply B. lia.
      * cbn. lia.
Qed.
Lemma first_hit_intro d : forall l n,
  (forall ws, In ws (firstn n l) -> forall w, In w ws -> ~ mentions w d) ->
  (n = length l \/ exists ws, nth_error l n = Some ws /\ exists w, In w ws /\ mentions w d) -> first_hit d l = n.
Proof.
  assert (HT : forall ws, hit d ws = true <-> exists w, In w ws /\ mentions w d).
  { intros ws. unfold hit. rewrite existsb_exists. setoid_rewrite contains_iff. reflexivity. }
  induction l as [|ws l IH]; intros n A B.
  - destruct B as [->|(ws & N & _)]; [reflexivity|destruct n; discriminate].
  - cbn. destruct n as [|n].
    + destruct B as [B|(vs & N & H)]; [discriminate|]. injection N as ->. apply HT in H. rewrite H. reflexivity.
    + destruct (hit d ws) eqn:H.
      * apply HT in H. destruct H as (w & W & M). destruct (A ws (or_introl eq_refl) w W M).
      * f_equal. apply IH.
        -- intros vs I. apply A. right. exact I.
        -- destruct B as [B|B]; [left; injection B as ->; reflexivity|right; exact B].
Qed.

(** ** Lists of records *)

Inductive interleaving {A} : list A -> list A -> list A -> Prop :=
| il_nil : interleaving [] [] []
| il_left : forall x a b l, interleaving a b l -> interleaving (x :: a) b (x :: l)
| il_right : forall x a b l, interleaving a b l -> interleaving a (x :: b) (x :: l).
(** [out] is what [P] holds for, in the order of [l]. *)
Definition chosen {A} (P : A -> Prop) (l out : list A) : Prop :=
  exists others, interleaving out others l /\ Forall P out /\ Forall (fun s => ~ P s) others.

Lemma filter_chosen {A} f (P : A -> Prop) l : (forall s, f s = true <-> P s) -> chosen P l (filter f l).
Proof.
  intros E. induction l as [|s l (o & I & F & G)]; [exists []; repeat constructor|]. cbn.
  destruct (f s) eqn:Q.
  - exists o. split; [constructor; exact I|]. split; [constructor; [apply E; exact Q|exact F]|exact G].
  - exists (s :: o). split; [constructor; exact I|]. split; [exact F|]. constructor; [|exact G].
    intros X. apply E in X. congruence.
Qed.

(** A component that grows by what each record adds. *)
Lemma fold_grow {B} (proj : known -> list B) (adds : rdf -> list B) :
  (forall k r, proj (learn k r) = proj k ++ adds r) ->
  forall l k, proj (fold_left learn l k) = proj k ++ flat_map adds l.
Proof.
  intros H. induction l as [|r l IH]; intros k; cbn; [rewrite app_nil_r; reflexivity|].
  rewrite IH, H, <- app_assoc. reflexivity.
Qed.

Definition note_colour (r : rdf) : option str :=
  if for_notesb r && Nat.eqb (first_hit (rd_def r) meanings) 9 then
    match find_value (S_ "color") (rd_def r) with
    | Some c => Some c
    | None => if contains (S_ "marked note") (rd_def r) || contains (S_ "matched note") (rd_def r) then Some (S_ "red") else None
    end
  else None.
Definition is_note (r : rdf) : bool := match note_colour r with Some _ => true | None => false end.
Definition is_text (r : rdf) : bool :=
  for_textb r && (contains (S_ "marked text") (rd_def r) || contains (S_ "matched text") (rd_def r)).
Definition is_editorial (r : rdf) : bool := for_notesb r && Nat.eqb (first_hit (rd_def r) meanings) 7.

Definition one {A} (b : bool) (x : A) : list A := if b then [x] else [].

Lemma flat_one {A B} (f : A -> bool) (g : A -> B) l : flat_map (fun x => one (f x) (g x)) l = map g (filter f l).
Proof. induction l as [|x l IH]; [reflexivity|]. cbn. rewrite IH. destruct (f x); reflexivity. Qed.

Ltac frames r :=
  match goal with |- context [learn ?k r] =>
    destruct (for_notesb r) eqn:FN;
    [ rewrite (learn_notes k r FN), kern_cases; cbv zeta;
      destruct (stroke_frame (rd_sig r) (rd_def r) k) as (S1 & S2 & S3 & S4 & S5 & S6 & S7);
      remember (if contains (S_ "vertical stroke") (rd_def r) then set_switch VerticalStroke (rd_sig r) k else k) as k1 eqn:K1
    | destruct (for_textb r) eqn:FT;
      [ rewrite (learn_text k r FT); destruct (text_frame (rd_sig r) (rd_def r) k) as (S3 & S4 & S5 & S8 & S6 & S7)
      | destruct (learn_other k r FN FT) as [->|[->| ->]];
        [ | destruct (meta_frame (rd_def r) k) as (S1 & S2 & S3 & S4 & S5 & S8 & S6 & S7)
          | destruct (dynam_frame (rd_sig r) (rd_def r) k) as (S1 & S2 & S3 & S4 & S5 & S8 & S6 & S7) ] ] ]
  end.

Lemma disjoint r : for_notesb r = true -> for_textb r = false.
Proof.
  intros H. unfold for_notesb in H. apply andb_true_iff in H. destruct H as (K & _). apply str_eqb_eq in K.
  unfold for_textb. rewrite K. reflexivity.
Qed.

Lemma first_hit_le d : first_hit d meanings <= 9.
Proof. destruct (first_hit_spec d meanings _ eq_refl) as (_ & _ & H). exact H. Qed.

Lemma note_step k r :
  k_noteMarks (learn k r) = k_noteMarks k ++ one (is_note r) (rd_sig r)
  /\ k_noteColors (learn k r) = k_noteColors k ++ one (is_note r) (or_else (note_colour r) [])
  /\ k_noteDirs (learn k r) = k_noteDirs k ++ one (is_note r) (or_else (find_text (rd_def r)) []).
Proof.
  unfold is_note, note_colour. frames r; cbn [andb one];
    [|rewrite S3, S4, S5, !app_nil_r; auto|rewrite !app_nil_r; auto|rewrite S3, S4, S5, !app_nil_r; auto..].
  pose proof (first_hit_le (rd_def r)) as L.
  destruct (first_hit (rd_def r) meanings) as [|[|[|[|[|[|[|[|[|n]]]]]]]]] eqn:FH; cbn [Nat.eqb one];
    try (rewrite !app_nil_r; cbn; rewrite ?S3, ?S4, ?S5; repeat split; fail).
  assert (n = 0) by lia. subst n. cbn [Nat.eqb]. unfold note_record.
  destruct (find_value (S_ "color") (rd_def r)) as [c|]; cbn [one or_else].
  - cbn. rewrite S3, S4, S5. repeat split.
  - destruct (contains (S_ "marked note") (rd_def r) || contains (S_ "matched note") (rd_def r)); cbn [one or_else].
    + cbn. rewrite S3, S4, S5. repeat split.
    + rewrite !app_nil_r, S3, S4, S5. repeat split.
Qed.

Lemma text_step k r :
  k_textMarks (learn k r) = k_textMarks k ++ one (is_text r) (rd_sig r)
  /\ k_textColors (learn k r) = k_textColors k ++ one (is_text r) (or_else (find_value (S_ "color") (rd_def r)) (S_ "red")).
Proof.
  unfold is_text. frames r.
  - rewrite (disjoint r FN). cbn [andb one]. rewrite !app_nil_r.
    destruct (first_hit (rd_def r) meanings) as [|[|[|[|[|[|[|[|[|n]]]]]]]]]; cbn; rewrite ?S1, ?S2; auto.
    unfold note_record. destruct (find_value (S_ "color") (rd_def r)); [cbn; rewrite S1, S2; auto|].
    destruct (contains (S_ "marked note") (rd_def r) || contains (S_ "matched note") (rd_def r)); cbn; rewrite S1, S2; auto.
  - cbn [andb]. unfold text_record.
    destruct (contains (S_ "marked text") (rd_def r) || contains (S_ "matched text") (rd_def r)); cbn [one]; [auto|].
    rewrite !app_nil_r. auto.
  - cbn. rewrite !app_nil_r. auto.
  - cbn [andb one]. rewrite !app_nil_r, S1, S2. auto.
  - cbn [andb one]. rewrite !app_nil_r, S1, S2. auto.
Qed.

Lemma editorial_step k r :
  k_editorials (learn k r) = k_editorials k ++ one (is_editorial r) (rd_sig r)
  /\ k_editorialTypes (learn k r) = k_editorialTypes k ++ one (is_editorial r) (editorial_type (rd_def r)).
Proof.
  unfold is_editorial. frames r; cbn [andb one]; try (rewrite S6, S7, !app_nil_r; auto); try (rewrite !app_nil_r; auto).
  destruct (first_hit (rd_def r) meanings) as [|[|[|[|[|[|[|[|[|n]]]]]]]]]; cbn [Nat.eqb one];
    try (rewrite !app_nil_r; cbn; rewrite ?S6, ?S7; split; reflexivity).
  - cbn. rewrite S6, S7. auto.
  - rewrite !app_nil_r. unfold note_record. destruct (find_value (S_ "color") (rd_def r)); [cbn; rewrite S6, S7; auto|].
    destruct (contains (S_ "marked note") (rd_def r) || contains (S_ "matched note") (rd_def r)); cbn; rewrite S6, S7; auto.
Qed.

Theorem notes_known l : let k := generateKnownInfo l in
  k_noteMarks k = map rd_sig (filter is_note l)
  /\ k_noteColors k = map (fun r => or_else (note_colour r) []) (filter is_note l)
  /\ k_noteDirs k = map (fun r => or_else (find_text (rd_def r)) []) (filter is_note l).
Proof.
  cbv zeta. unfold generateKnownInfo. split; [|split].
  - rewrite (fold_grow k_noteMarks (fun r => one (is_note r) (rd_sig r))); [|intros; apply note_step]. apply flat_one.
  - rewrite (fold_grow k_noteColors (fun r => one (is_note r) (or_else (note_colour r) []))); [|intros; apply note_step].
    exact (flat_one is_note (fun r => or_else (note_colour r) []) l).
  - rewrite (fold_grow k_noteDirs (fun r => one (is_note r) (or_else (find_text (rd_def r)) []))); [|intros; apply note_step].
    exact (flat_one is_note (fun r => or_else (find_text (rd_def r)) []) l).
Qed.
Theorem text_known l : let k := generateKnownInfo l in
  k_textMarks k = map rd_sig (filter is_text l)
  /\ k_textColors k = map (fun r => or_else (find_value (S_ "color") (rd_def r)) (S_ "red")) (filter is_text l).
Proof.
  cbv zeta. unfold generateKnownInfo. split.
  - rewrite (fold_grow k_textMarks (fun r => one (is_text r) (rd_sig r))); [|intros; apply text_step]. apply flat_one.
  - rewrite (fold_grow k_textColors (fun r => one (is_text r) (or_else (find_value (S_ "color") (rd_def r)) (S_ "red"))));
      [|intros; apply text_step]. exact (flat_one is_text _ l).
Qed.
Theorem editorial_known l : let k := generateKnownInfo l in
  k_editorials k = map rd_sig (filter is_editorial l)
  /\ k_editorialTypes k = map (fun r => editorial_type (rd_def r)) (filter is_editorial l).
Proof.
  cbv zeta. unfold generateKnownInfo. split.
  - rewrite (fold_grow k_editorials (fun r => one (is_editorial r) (rd_sig r))); [|intros; apply editorial_step]. apply flat_one.
  - rewrite (fold_grow k_editorialTypes (fun r => one (is_editorial r) (editorial_type (rd_def r)))); [|intros; apply editorial_step].
    exact (flat_one is_editorial _ l).
Qed.

(** What these records are. *)
Definition words_of (n : nat) : list str := concat (firstn n meanings).
Definition mentions_none (ws : list str) (d : str) : Prop := forall w, In w ws -> ~ mentions w d.

Lemma in_concat_firstn n w : In w (words_of n) <-> exists ws, In ws (firstn n meanings) /\ In w ws.
Proof. unfold words_of. rewrite in_concat. reflexivity. Qed.
Lemma hit_at_iff d n ws : nth_error meanings n = Some ws ->
  (first_hit d meanings = n <-> mentions_none (words_of n) d /\ exists w, In w ws /\ mentions w d).
Proof.
  intros N. split.
  - intros E. destruct (first_hit_spec d meanings n E) as (A & B & _). split.
    + intros w W. apply in_concat_firstn in W. destruct W as (vs & I & J). exact (A vs I w J).
    + destruct B as (vs & N2 & H); [apply (proj1 (nth_error_Some meanings n)); rewrite N; discriminate|]. rewrite N in N2. injection N2 as <-. exact H.
  - intros (A & B). apply first_hit_intro; [|right; eauto]. intros vs I w W. apply A. apply in_concat_firstn. eauto.
Qed.
Lemma no_hit_iff d : first_hit d meanings = 9 <-> mentions_none (words_of 9) d.
Proof.
  split.
  - intros E. destruct (first_hit_spec d meanings 9 E) as (A & _). intros w W. apply in_concat_firstn in W.
    destruct W as (vs & I & J). exact (A vs I w J).
  - intros A. apply first_hit_intro; [|left; reflexivity]. intros vs I w W. apply A. apply in_concat_firstn. eauto.
Qed.

(** ** Switches *)

Definition switch_rank (x : switch) : nat :=
  match x with NoStem => 0 | CueSize => 1 | HairpinAccent => 2 | VerticalStroke => 3 | TerminalLong => 3 | Above => 4 | Below => 5 | Linked => 6 end.
Definition sets (x : switch) (r : rdf) : bool :=
  for_notesb r &&
  match x with
  | VerticalStroke => Nat.leb 3 (first_hit (rd_def r) meanings) && contains (S_ "vertical stroke") (rd_def r)
  | _ => Nat.eqb (first_hit (rd_def r) meanings) (switch_rank x)
  end.

Lemma switch_step k r x : k_switch (learn k r) x = if sets x r then rd_sig r else k_switch k x.
Proof.
  unfold sets. frames r; cbn [andb]; try (rewrite S8; reflexivity); try reflexivity.
  assert (NR : forall k, k_switch (note_record (rd_sig r) (rd_def r) k) = k_switch k).
  { intros k0. unfold note_record. destruct (find_value (S_ "color") (rd_def r)); [reflexivity|].
    destruct (contains (S_ "marked note") (rd_def r) || contains (S_ "matched note") (rd_def r)); reflexivity. }
  assert (V : forall y, k_switch k1 y = if contains (S_ "vertical stroke") (rd_def r)
    then match y with VerticalStroke => rd_sig r | _ => k_switch k y end else k_switch k y).
  { intros y. rewrite K1. destruct (contains (S_ "vertical stroke") (rd_def r)); [destruct y|]; reflexivity. }
  clear K1. destruct (first_hit (rd_def r) meanings) as [|[|[|[|[|[|[|[|[|n]]]]]]]]]; rewrite ?NR;
    destruct x; cbn [Nat.eqb Nat.leb andb switch_rank]; try reflexivity;
    cbn [set_switch add_editorial set_phrase k_switch switch_eqb]; rewrite ?V;
    destruct (contains (S_ "vertical stroke") (rd_def r)); reflexivity.
Qed.

Theorem switch_known l x : k_switch (generateKnownInfo l) x = last (map rd_sig (filter (sets x) l)) [].
Proof.
  unfold generateKnownInfo.
  assert (G : forall l k, k_switch (fold_left learn l k) x = last (map rd_sig (filter (sets x) l)) (k_switch k x)).
  { clear l. induction l as [|r l IH]; intros k; [reflexivity|]. cbn [fold_left filter]. rewrite IH, switch_step.
    destruct (sets x r); [|reflexivity]. cbn [map]. destruct (map rd_sig (filter (sets x) l)) as [|y t] eqn:E; [reflexivity|].
    cbn [last]. clear. revert y. induction t as [|z t IH]; intros y; [reflexivity|]. apply IH. }
  apply G.
Qed.
