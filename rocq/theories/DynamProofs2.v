(** Lemmas about the text around a dynamic in Humdrum files. *)
From Coq Require Import Lia ZArith.
From Verif Require Import DateModel PyStr PyStrProofs LayoutModel LayoutProofs BarModel SignifierModel SignifierProofs TokenProofs2 DynamModel DynamProofs.

(** ** Words *)
Definition words (s : str) : list str := filter (fun w => negb (is_nil w)) (split_char " " s).

Lemma split_char_mid sep a b : split_char sep (a ++ sep :: b) = split_char sep a ++ split_char sep b.
Proof.
  induction a as [|c a IH]; cbn [app split_char].
  - rewrite Ascii.eqb_refl. reflexivity.
  - destruct (Ascii.eqb c sep); [rewrite IH; reflexivity|]. rewrite IH.
    destruct (split_char sep a) as [|w ws] eqn:E; [exfalso; eapply split_char_nonempty; eauto|reflexivity].
Qed.
Lemma words_mid a b : words (a ++ " "%char :: b) = words a ++ words b.
Proof. unfold words. rewrite split_char_mid, filter_app. reflexivity. Qed.
Lemma words_single w : char_in " " w = false -> w <> [] -> words w = [w].
Proof. intros H N. unfold words. rewrite split_char_no_sep by exact H. destruct w; [congruence|reflexivity]. Qed.
Lemma words_nil : words [] = [].
Proof. reflexivity. Qed.
Lemma words_blank c : words (" "%char :: c) = words c.
Proof. change (" "%char :: c) with ([] ++ " "%char :: c). rewrite words_mid. reflexivity. Qed.
Lemma words_last c : words (c ++ [" "%char]) = words c.
Proof. rewrite words_mid. apply app_nil_r. Qed.

(** White space is only the space. *)
Definition plain (s : str) : Prop := forall c, In c s -> is_space c = true -> c = " "%char.
Lemma plain_app a b : plain (a ++ b) <-> plain a /\ plain b.
Proof.
  unfold plain. split.
  - intro H. split; intros c I; apply H, in_or_app; auto.
  - intros [A B] c I. apply in_app_or in I as [I|I]; auto.
Qed.
Lemma words_lstrip s : plain s -> words (lstrip s) = words s.
Proof.
  induction s as [|c s IH]; intro P; [reflexivity|]. cbn [lstrip]. destruct (is_space c) eqn:E; [|reflexivity].
  assert (c = " "%char) by (apply P; [now left|exact E]). subst c. rewrite words_blank. apply IH.
  intros x I. apply P. now right.
Qed.
(** [strip] removes spaces at both ends. *)
Lemma lstrip_spec s : exists a, s = a ++ lstrip s /\ forallb is_space a = true.
Proof.
  induction s as [|c s (a & E & A)]; [exists []; auto|]. cbn [lstrip]. destruct (is_space c) eqn:C.
  - exists (c :: a). cbn. rewrite C. split; [congruence|exact A].
  - exists []. auto.
Qed.
Lemma strip_spec s : exists a b, s = a ++ strip s ++ b /\ forallb is_space a = true /\ forallb is_space b = true.
Proof.
  destruct (lstrip_spec s) as (a & Ea & A). destruct (lstrip_spec (rev (lstrip s))) as (b & Eb & B).
  exists a, (rev b). unfold strip. split; [|split].
  - rewrite <- rev_app_distr, <- Eb, rev_involutive. exact Ea.
  - exact A.
  - rewrite forallb_forall in *. intros x I. apply B, in_rev, I.
Qed.
Lemma words_spaces a : forallb is_space a = true -> plain a -> forall s, words (a ++ s) = words s /\ words (s ++ a) = words s.
Proof.
  induction a as [|c a IH]; intros H P s; [rewrite app_nil_r; auto|].
  cbn in H. apply andb_true_iff in H as [H1 H2].
  assert (c = " "%char) by (apply P; [now left|exact H1]). subst c.
  assert (Pa : plain a) by (intros x I; apply P; now right). split.
  - cbn [app]. rewrite words_blank. apply IH; assumption.
  - rewrite words_mid. destruct (IH H2 Pa []) as [E _]. rewrite app_nil_r in E. rewrite E. apply app_nil_r.
Qed.
Lemma words_strip s : plain s -> words (strip s) = words s.
Proof.
  intro P. destruct (strip_spec s) as (a & b & E & A & B).
  assert (Pa : plain a /\ plain b). { rewrite E in P. apply plain_app in P as [P1 P2]. apply plain_app in P2 as [_ P2]. auto. }
  rewrite E at 2. destruct (words_spaces a A (proj1 Pa) (strip s ++ b)) as [-> _].
  destruct (words_spaces b B (proj2 Pa) (strip s)) as [_ ->]. reflexivity.
Qed.

(** ** Matches *)
Lemma first_some_in {A B} (f : A -> option B) l b : first_some f l = Some b -> exists a, In a l /\ f a = Some b.
Proof.
  induction l as [|a l IH]; cbn; [discriminate|]. destruct (f a) as [b'|] eqn:E.
  - intro H. injection H as <-. eauto.
  - intro H. destruct (IH H) as (x & X & Y). eauto.
Qed.
Lemma first_some_none {A B} (f : A -> option B) l : first_some f l = None -> forall a, In a l -> f a = None.
Proof.
  induction l as [|a l IH]; cbn; [intros _ ? []|]. destruct (f a) as [b'|] eqn:E; [discriminate|].
  intros H x [<-|I]; auto.
Qed.

(** A place in the text where the word stands by itself. *)
Definition bounded (a b : str) : Prop :=
  (a = [] \/ exists a', a = a' ++ [" "%char]) /\ (b = [] \/ exists b', b = " "%char :: b').

Lemma plain_no_newline s : plain s -> ~ In newline s.
Proof. intros P I. specialize (P newline I eq_refl). discriminate. Qed.
Lemma at_end_plain r : plain r -> at_end r = true -> r = [].
Proof.
  intros P H. unfold at_end in H. apply orb_true_iff in H as [H|H]; [apply is_nil_eq, H|].
  apply str_eqb_eq in H. subst r. exfalso. apply (plain_no_newline [newline] P). now left.
Qed.
Lemma span_parts s w r : span non_space s = (w, r) ->
  s = w ++ r /\ forallb non_space w = true /\ match r with [] => True | c :: _ => is_space c = true end.
Proof.
  intro E. pose proof (span_join non_space s) as J. pose proof (span_fst_all non_space s) as F.
  pose proof (span_snd_head non_space s) as D. rewrite E in J, F, D. cbn in J, F, D.
  split; [auto|split; [exact F|]]. destruct r as [|c r]; [exact I|]. unfold non_space in D. apply negb_false_iff, D.
Qed.

Lemma match_whole_spec patt v w : plain v -> match_whole patt v = Some w -> v = w /\ patt w = true.
Proof.
  intros P. unfold match_whole. destruct (span non_space v) as [x r] eqn:E. apply span_parts in E as (E & _ & _).
  destruct (patt x && at_end r) eqn:B; [|discriminate]. intro H. injection H as <-.
  apply andb_true_iff in B as [B1 B2]. rewrite E in P. apply plain_app in P as [_ P].
  apply (at_end_plain r P) in B2. subst r. rewrite app_nil_r in E. auto.
Qed.
Lemma match_whole_std patt w : standard w -> match_whole patt w = if patt w then Some w else None.
Proof.
  intro S. unfold match_whole. rewrite (span_all non_space w (std_non_space w S)). rewrite andb_comm. reflexivity.
Qed.
Lemma find_whole_std w : standard w -> find_whole w = Some w.
Proof.
  intro S. unfold find_whole. pose proof (std_pattern w S) as P. revert P. generalize dynamicPatterns as ps.
  induction ps as [|p ps IH]; cbn; [discriminate|]. rewrite match_whole_std by exact S.
  destruct (p w); [reflexivity|]. exact IH.
Qed.
Lemma find_whole_plain v w : plain v -> find_whole v = Some w -> v = w /\ standard w.
Proof.
  intros P H. apply first_some_in in H as (patt & I & H). apply match_whole_spec in H as (E & H); [|exact P].
  split; [exact E|]. exact (pattern_std patt w I H).
Qed.

Lemma match_bracketed_spec patt o c v w : plain v -> match_bracketed patt o c v = Some w -> v = o ++ w ++ c /\ patt w = true.
Proof.
  intros P. unfold match_bracketed. destruct (starts_with o v) eqn:S; [|discriminate]. apply starts_iff in S as (t & ->).
  rewrite skipn_app, skipn_all, Nat.sub_diag. cbn [app skipn]. destruct (span non_space t) as [x r] eqn:E.
  apply span_parts in E as (-> & _ & _). destruct (patt x && starts_with c r && at_end (skipn (length c) r)) eqn:B; [|discriminate].
  intro H. injection H as <-. apply andb_true_iff in B as [B B3]. apply andb_true_iff in B as [B1 B2].
  apply starts_iff in B2 as (u & ->). rewrite skipn_app, skipn_all, Nat.sub_diag in B3. cbn [app skipn] in B3.
  assert (u = []). { apply at_end_plain; [|exact B3]. apply plain_app in P as [_ P]. apply plain_app in P as [_ P]. apply plain_app in P as [_ P]. exact P. }
  subst u. rewrite app_nil_r. auto.
Qed.

Lemma match_word_spec patt spaced before pre s f : plain s -> match_word patt spaced before pre s = Some f ->
  exists r, patt (f_word f) = true /\ f_before f = before /\
    (if spaced then f_match f = pre ++ f_word f ++ [" "%char] /\ s = f_word f ++ " "%char :: r
     else f_match f = pre ++ f_word f /\ s = f_word f).
Proof.
  intro P. unfold match_word. destruct (span non_space s) as [w r] eqn:E. apply span_parts in E as (E & _ & R).
  destruct (patt w) eqn:W; [|discriminate]. destruct spaced.
  - destruct r as [|c r]; [discriminate|]. intro H. injection H as <-. cbn.
    assert (c = " "%char). { apply P; [|exact R]. rewrite E. apply in_or_app. right. now left. } subst c.
    exists r. auto.
  - destruct (at_end r) eqn:A; [|discriminate]. intro H. injection H as <-. cbn. exists [].
    rewrite E in P. apply plain_app in P as [_ P]. apply (at_end_plain r P) in A. subst r. rewrite app_nil_r in E. auto.
Qed.
Lemma search_spaced_spec patt spaced s : forall before f, plain s -> search_spaced patt spaced before s = Some f ->
  exists a r, patt (f_word f) = true /\
    (if spaced then f_match f = " "%char :: f_word f ++ [" "%char] /\ s = a ++ " "%char :: f_word f ++ " "%char :: r
     else f_match f = " "%char :: f_word f /\ s = a ++ " "%char :: f_word f).
Proof.
  induction s as [|c s IH]; intros before f P; cbn [search_spaced]; [discriminate|].
  assert (Ps : plain s) by (intros x I; apply P; now right).
  destruct (if is_space c then match_word patt spaced before [c] s else None) as [g|] eqn:E.
  - intro H. injection H as <-. destruct (is_space c) eqn:C; [|discriminate].
    assert (c = " "%char) by (apply P; [now left|exact C]). subst c.
    apply match_word_spec in E as (r & W & _ & E); [|exact Ps]. exists [], r. split; [exact W|].
    destruct spaced; destruct E as [-> E]; rewrite E at 1; auto.
  - intro H. destruct (IH _ _ Ps H) as (a & r & W & F). exists (c :: a), r. split; [exact W|].
    destruct spaced; destruct F as [-> F]; rewrite F at 1; auto.
Qed.

Lemma replace_first_spec old new s : contains old s = true ->
  exists a b, s = a ++ old ++ b /\ replace_first old new s = a ++ new ++ b.
Proof.
  induction s as [|c s IH]; cbn [contains replace_first].
  - rewrite orb_false_r. intro H. rewrite H. apply starts_iff in H as (t & H). destruct old; [|discriminate].
    exists [], []. cbn. auto.
  - destruct (starts_with old (c :: s)) eqn:S.
    + intros _. apply starts_iff in S as (t & S). exists [], t. rewrite S at 1. rewrite S, skipn_app, skipn_all, Nat.sub_diag. auto.
    + cbn [orb]. intro H. destruct (IH H) as (a & b & E & F). exists (c :: a), b. rewrite E at 1. rewrite F. auto.
Qed.
Lemma replace_first_absent old new s : contains old s = false -> replace_first old new s = s.
Proof.
  induction s as [|c s IH]; cbn [contains replace_first]; intro H; apply orb_false_iff in H as [H1 H2]; rewrite H1; [reflexivity|].
  rewrite IH by exact H2. reflexivity.
Qed.
Lemma char_in_cons c x s : char_in c (x :: s) = Ascii.eqb c x || char_in c s.
Proof. reflexivity. Qed.
(** A text with one percent sign. *)
Lemma starts_percent a o t : char_in "%" a = false -> starts_with ("%"%char :: o) (a ++ t) = match a with [] => starts_with ("%"%char :: o) t | _ => false end.
Proof. destruct a as [|c a]; [reflexivity|]. cbn [char_in existsb app starts_with]. intro H. apply orb_false_iff in H as [H _]. rewrite H. reflexivity. Qed.
Lemma replace_first_percent o new a t : char_in "%" a = false -> starts_with ("%"%char :: o) t = true ->
  replace_first ("%"%char :: o) new (a ++ t) = a ++ new ++ skipn (length o) (skipn 1 t).
Proof.
  intros A T. induction a as [|c a IH]; cbn [app].
  - destruct t as [|x t]; [discriminate|]. cbn [replace_first]. rewrite T. reflexivity.
  - cbn [replace_first]. pose proof (starts_percent (c :: a) o t A) as S. cbn [app] in S. rewrite S.
    rewrite char_in_cons in A. apply orb_false_iff in A as [_ A]. rewrite (IH A). reflexivity.
Qed.
Lemma replace_percent new a t : char_in "%" a = false -> char_in "%" t = false ->
  replace (S_ "%s") new (a ++ S_ "%s" ++ t) = a ++ new ++ t.
Proof.
  intros A T.
  assert (N : forall fuel u, char_in "%" u = false -> replace_fuel fuel (S_ "%s") new u = u).
  { induction fuel as [|fuel IH]; intros u U; [reflexivity|]. destruct u as [|c u]; [reflexivity|].
    change (replace_fuel (S fuel) (S_ "%s") new (c :: u)) with
      (if starts_with (S_ "%s") (c :: u) then new ++ replace_fuel fuel (S_ "%s") new (skipn (length (S_ "%s")) (c :: u)) else c :: replace_fuel fuel (S_ "%s") new u).
    rewrite char_in_cons in U. apply orb_false_iff in U as [U1 U2].
    change (starts_with (S_ "%s") (c :: u)) with (Ascii.eqb "%" c && starts_with (S_ "s") u). rewrite U1. cbn [andb]. rewrite IH by exact U2. reflexivity. }
  unfold replace. assert (F : length (a ++ S_ "%s" ++ t) + 1 <= S (length (a ++ S_ "%s" ++ t))) by lia.
  revert F. generalize (S (length (a ++ S_ "%s" ++ t))) as fuel. induction a as [|c a IH]; intros fuel F.
  - cbn [app] in *. destruct fuel as [|fuel]; [rewrite app_length in F; cbn in F; lia|].
    change (replace_fuel (S fuel) (S_ "%s") new (S_ "%s" ++ t)) with (new ++ replace_fuel fuel (S_ "%s") new t).
    rewrite N by exact T. reflexivity.
  - destruct fuel as [|fuel]; [cbn in F; lia|].
    change (replace_fuel (S fuel) (S_ "%s") new ((c :: a) ++ S_ "%s" ++ t)) with
      (if starts_with (S_ "%s") (c :: a ++ S_ "%s" ++ t) then new ++ replace_fuel fuel (S_ "%s") new (skipn (length (S_ "%s")) (c :: a ++ S_ "%s" ++ t)) else c :: replace_fuel fuel (S_ "%s") new (a ++ S_ "%s" ++ t)).
    rewrite char_in_cons in A. apply orb_false_iff in A as [A1 A2].
    change (starts_with (S_ "%s") (c :: a ++ S_ "%s" ++ t)) with (Ascii.eqb "%" c && starts_with (S_ "s") (a ++ S_ "%s" ++ t)). rewrite A1. cbn [andb app].
    rewrite IH; [reflexivity|exact A2|]. cbn [app length] in F. lia.
Qed.
