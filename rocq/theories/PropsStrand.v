(** Strands: C26 (null tokens), C27 (every token is on one strand) and C82 (layout comments).

    A file is given by its lines; the spine, link and track analyses of SpineModel.v give the
    labels [infos], the final state [fin] and the links [g] (C14-C19).  The theorems are about
    what the strand analysis makes of them. *)
From Coq Require Import Lia Permutation Sorted.
From Verif Require Import PyStr PyStrProofs LayoutModel TextModel SpineModel SpineProofs SpineProofs2 LinkProofs BarModel RhythmModel SignifierProofs StrandModel StrandProofs StrandFileProofs PropsSpine.

(** ** Vocabulary *)

(** The text of a token of a file. *)
Definition token_is (lines : list str) (t : tokref) (x : str) : Prop := exists l, nth_error lines (fst t) = Some l /\ nth_error (tokens l) (snd t) = Some x.
(** A strand stops at a terminator and at a merge with a merge on its left. *)
Definition stops (lines : list str) (t : tokref) : Prop :=
  token_is lines t (S_ "*-") \/ (token_is lines t (S_ "*v") /\ exists k, snd t = S k /\ token_is lines (fst t, k) (S_ "*v")).
(** The way down a strand: always to the first token linked below. *)
Inductive strand_path (lines : list str) (g : graph) (f : tokref) : tokref -> Prop :=
| sp_first : strand_path lines g f f
| sp_next t u : strand_path lines g f t -> ~ stops lines t -> hd_error (nextTokens g t) = Some u -> strand_path lines g f u.
(** Following the links down without minding the ends of strands. *)
Inductive runs_into (g : graph) (f : tokref) : tokref -> Prop :=
| ri_first : runs_into g f f
| ri_next t u : runs_into g f t -> hd_error (nextTokens g t) = Some u -> runs_into g f u.

(** The conditions on a file: it reads; its first line of spines has exclusive interpretations
    only; manipulators stand on interpretation lines; only columns of one track are merged;
    its last line opens no spine. *)
Record good_file (lines : list str) (infos : list (list str)) (fin : sstate) (g : graph) : Prop := mkGood {
  gf_spines : analyzeSpines lines = Some (infos, fin);
  gf_links : analyzeLinks lines = Fine g;
  gf_tracks : Forall (fun labels => analyzeTracks labels <> None) infos;
  gf_opens : opens_cleanly lines;
  gf_manip : manipulators_on_interpretation_lines lines;
  gf_merges : merges_within_tracks lines infos;
  gf_last : no_open_spine lines
}.

Lemma token_is_text lines infos g t x : token_is lines t x -> sf_text (file_of lines infos g) t = x.
Proof. intros (l & N & E). destruct t as [ln a]. rewrite (text_of lines infos g ln l a N). apply nth_error_nth. exact E. Qed.
Lemma text_token_is lines infos g t : in_file lines t -> token_is lines t (sf_text (file_of lines infos g) t).
Proof.
  intros (l & N & _ & L). destruct t as [ln a]. cbn [fst snd] in *. rewrite (text_of lines infos g ln l a N). exists l. split; [exact N|]. apply nth_error_nth'. exact L.
Qed.
Lemma stops_ends lines infos fin g t : good_file lines infos fin g -> in_file lines t -> stops lines t <-> ends (file_of lines infos g) t = true.
Proof.
  intros [HS HL HT HO HM HV HE] (l & N & S1 & B). destruct t as [ln a]. cbn [fst snd] in *. split.
  - intros [(l' & N' & E)|((l' & N' & E) & k & K & (l'' & N'' & E''))]; cbn [fst snd] in *; rewrite N in N'; injection N' as <-.
    + unfold ends. assert (X : is_end (file_of lines infos g) (ln, a) = true) by (apply (is_end_of lines infos g ln l a N); exact E). rewrite X.
      destruct (is_v (file_of lines infos g) (ln, a)) eqn:V1; [|reflexivity]. apply (is_v_of lines infos g ln l a N) in V1. unfold V in V1. rewrite E in V1. discriminate.
    + subst a. rewrite N in N''. injection N'' as <-. apply (later_merge_ends lines infos fin g HS HT HV ln l k N S1 E E'').
  - intros E. unfold ends in E. destruct (is_v (file_of lines infos g) (ln, a) && _) eqn:W.
    + apply andb_prop in W. destruct W as (W & _). apply (is_v_of lines infos g ln l a N) in W. unfold left_is_v in E. cbn [fst snd] in E. destruct a as [|k]; [discriminate|].
      apply (is_v_of lines infos g ln l k N) in E. right. split; [exists l; split; [exact N|exact W]|]. exists k. split; [reflexivity|]. exists l. split; [exact N|exact E].
    + apply (is_end_of lines infos g ln l a N) in E. left. exists l. split; [exact N|exact E].
Qed.
Lemma linked_in_file lines infos fin g t u : good_file lines infos fin g -> In u (nextTokens g t) -> in_file lines u /\ in_file lines t.
Proof.
  intros [HS HL HT HO HM HV HE] I. destruct (next_line lines infos fin g HS HL HT HO HM t u I) as (p & q & links & adds & AD & R & _ & J & _).
  destruct (rule_range _ _ _ _ _ _ R) as (RG & _). apply RG in J. destruct AD as (A1 & A2 & A3 & A4 & A5 & A6). split; [exists q|exists p]; repeat split; auto; lia.
Qed.
Lemma path_in_file lines infos fin g f t : good_file lines infos fin g -> in_file lines f -> on_path (file_of lines infos g) f t -> in_file lines t.
Proof.
  intros G I P. destruct P as [|t u P E X]; [exact I|]. apply next0_in in X. cbn [file_of sf_next] in X. apply (linked_in_file lines infos fin g t u G X).
Qed.
Lemma path_iff lines infos fin g f t : good_file lines infos fin g -> in_file lines f -> strand_path lines g f t <-> on_path (file_of lines infos g) f t.
Proof.
  intros G I. split.
  - induction 1 as [|t u P IH NS X]; [apply path_first|]. econstructor; [exact IH| |exact X]. destruct (ends (file_of lines infos g) t) eqn:E; [|reflexivity].
    exfalso. apply NS. apply (stops_ends lines infos fin g t G); [|exact E]. eapply path_in_file; [exact G|exact I|exact IH].
  - induction 1 as [|t u P IH E X]; [apply sp_first|]. econstructor; [exact IH| |exact X]. intros S1. apply (stops_ends lines infos fin g t G) in S1; [congruence|]. eapply path_in_file; eassumption.
Qed.
Lemma start_in_file lines s : In s (spine_starts lines) -> in_file lines s.
Proof.
  intros I. apply file_exclusives_in in I. destruct I as (l & _ & N & S1 & e & E & _). rewrite Nat.sub_0_r in N. exists l. split; [exact N|]. split; [exact S1|]. apply nth_error_Some. congruence.
Qed.
Lemma strand_in_file lines infos fin g f e : good_file lines infos fin g -> In (f, e) (all_strands (file_of lines infos g) (spine_starts lines)) -> in_file lines f.
Proof.
  intros G I. pose proof (file_forest lines infos fin g (gf_spines _ _ _ _ G) (gf_links _ _ _ _ G) (gf_tracks _ _ _ _ G) (gf_opens _ _ _ _ G) (gf_manip _ _ _ _ G) (gf_merges _ _ _ _ G) (gf_last _ _ _ _ G)) as FO.
  apply (firsts_tree _ _ FO) in I. destruct I as (s & S1 & T1 & _). destruct T1 as [|t u T1 E X]; [apply start_in_file; exact S1|]. cbn [file_of sf_next] in X. apply (linked_in_file lines infos fin g t u G X).
Qed.
Lemma good_forest lines infos fin g : good_file lines infos fin g -> forest (file_of lines infos g) (spine_starts lines).
Proof. intros [HS HL HT HO HM HV HE]. apply (file_forest lines infos fin g); assumption. Qed.
Lemma good_strands lines infos fin g : good_file lines infos fin g -> exists l, strands_of lines infos fin g = Some l /\ Permutation l (all_strands (file_of lines infos g) (spine_starts lines)).
Proof. intros [HS HL HT HO HM HV HE]. apply (file_strands lines infos fin g); assumption. Qed.

(** ** C27: every token of every spine is on exactly one strand, and each strand is a path of
    consecutive tokens. *)

(** Partial: for files that merge columns of one track only and whose last line opens no
    spine.  Then the strand analysis succeeds; every token is on the path of exactly one
    strand; a strand begins at an exclusive interpretation or at the second or a later branch
    of a split, and ends where its path stops, or has no end when its path runs out of lines;
    and the number recorded in a token is that of its strand, as long as no strand that ended
    above it runs into it. *)
Theorem C27_partial lines infos fin g : good_file lines infos fin g ->
  exists l, strands_of lines infos fin g = Some l /\
    (forall t, in_file lines t -> exists i f e, nth_error l i = Some (f, e) /\ strand_path lines g f t /\
       (forall j f' e', nth_error l j = Some (f', e') -> strand_path lines g f' t -> j = i) /\
       ((forall x, in_file lines x -> stops lines x -> x <> t -> ~ runs_into g x t) -> strandIndex (file_of lines infos g) l t = Some i)) /\
    (forall f e, In (f, e) l -> in_file lines f /\
       ((exists x, token_is lines f x /\ starts_with (S_ "**") x = true) \/ (exists p, in_file lines p /\ ~ stops lines p /\ In f (tl (nextTokens g p)))) /\
       match e with
       | Some z => strand_path lines g f z /\ stops lines z
       | None => exists z, strand_path lines g f z /\ ~ stops lines z /\ nextTokens g z = []
       end).
Proof.
  intros G. assert (FO := good_forest _ _ _ _ G). destruct (good_strands _ _ _ _ G) as (l & E & P). exists l. split; [exact E|].
  assert (IA : forall s, In s l -> In s (all_strands (file_of lines infos g) (spine_starts lines))) by (intros s; apply Permutation_in; exact P). split.
  - intros t I. destruct (file_reached lines infos fin g (gf_spines _ _ _ _ G) (gf_links _ _ _ _ G) (gf_tracks _ _ _ _ G) (gf_opens _ _ _ _ G) (gf_manip _ _ _ _ G) (fst t) t (le_n _) I) as (s & S1 & T1).
    destruct (tree_strand _ _ FO s t S1 T1) as (f & e & IF & PF). assert (IL : In (f, e) l) by (eapply Permutation_in; [symmetry; exact P|exact IF]).
    destruct (In_nth_error _ _ IL) as (i & NI). exists i, f, e. split; [exact NI|]. split; [apply (path_iff lines infos fin g f t G); [eapply strand_in_file; eassumption|exact PF]|]. split.
    + intros j f' e' NJ SP. assert (IL' := nth_error_In _ _ NJ). apply (path_iff lines infos fin g f' t G) in SP; [|eapply strand_in_file; [exact G|apply IA; exact IL']].
      assert (f' = f) by (eapply (strand_unique _ _ FO); [apply IA; exact IL'|exact IF|exact SP|exact PF]). subst f'.
      assert (ND : NoDup (map fst l)) by (eapply Permutation_NoDup; [apply Permutation_map; symmetry; exact P|apply (firsts_nodup _ _ FO)]).
      rewrite NoDup_nth_error in ND. apply ND; [rewrite map_length; apply nth_error_lt in NJ; exact NJ|]. exact (eq_trans (map_nth_error fst _ _ NJ) (eq_sym (map_nth_error fst _ _ NI))).
    + intros NR. apply (strandIndex_path _ _ FO l i f e t P NI PF). intros s' x S2 T2 EX NX FL.
      assert (IX : in_file lines x). { destruct T2 as [|a b T2 EA X]; [apply start_in_file; exact S2|]. cbn [file_of sf_next] in X. apply (linked_in_file lines infos fin g a b G X). }
      apply (NR x IX); [apply (stops_ends lines infos fin g x G IX); exact EX|exact NX|]. clear -FL. induction FL as [|a b FL IH X]; [apply ri_first|]. econstructor; [exact IH|exact X].
  - intros f e IL. assert (IF := IA _ IL). assert (FF := strand_in_file lines infos fin g f e G IF). split; [exact FF|]. split.
    + apply (strand_in _ _ FO) in IF. destruct IF as (_ & [IS|(s & p & S1 & T1 & EP & X)]).
      * left. apply file_exclusives_in in IS. destruct IS as (y & _ & N & _ & x & NX & EX). rewrite Nat.sub_0_r in N. exists x. split; [exists y; auto|exact EX].
      * right. cbn [file_of sf_next] in X. assert (IP : in_file lines p) by (apply (linked_in_file lines infos fin g p f G); destruct (nextTokens g p); [contradiction|right; exact X]).
        exists p. split; [exact IP|]. split; [|exact X]. intros ST. apply (stops_ends lines infos fin g p G IP) in ST. congruence.
    + destruct (firsts_tree _ _ FO f e IF) as (s & _ & _ & L). assert (W := whole_last _ _ FO f L). apply (strand_in _ _ FO) in IF. destruct IF as (-> & _).
      destruct (fst (whole (file_of lines infos g) f)) as [z|].
      * destruct W as (PZ & EZ). split; [apply (path_iff lines infos fin g f z G FF); exact PZ|]. apply (stops_ends lines infos fin g z G); [eapply path_in_file; eassumption|exact EZ].
      * destruct W as (z & PZ & EZ & NZ). exists z. split; [apply (path_iff lines infos fin g f z G FF); exact PZ|]. split.
        { intros ST. apply (stops_ends lines infos fin g z G) in ST; [congruence|eapply path_in_file; eassumption]. }
        { unfold next0 in NZ. cbn [file_of sf_next] in NZ. destruct (nextTokens g z); [reflexivity|discriminate]. }
Qed.
Print Assumptions C27_partial.

(** Strands of one spine stand together, spine after spine, each group in the order of the
    places where its strands begin. *)
Lemma NoDup_app_parts {A} (a b : list A) : NoDup (a ++ b) -> NoDup a /\ NoDup b.
Proof.
  induction a as [|x a IH]; cbn [app]; [intros H; split; [constructor|exact H]|]. intros H. inversion H as [|? ? NI ND]; subst. destruct (IH ND) as (A1 & A2). split; [|exact A2].
  constructor; [intros I; apply NI; apply in_or_app; left; exact I|exact A1].
Qed.
Definition place_before (a b : tokref) : Prop := fst a < fst b \/ (fst a = fst b /\ snd a < snd b).
Lemma insert_sorted x l : StronglySorted (fun a b => first_le a b = true) l -> StronglySorted (fun a b => first_le a b = true) (insert_strand x l).
Proof.
  assert (TR : forall a b c, first_le a b = true -> first_le b c = true -> first_le a c = true).
  { intros [[a1 a2] ?] [[b1 b2] ?] [[c1 c2] ?]. unfold first_le. cbn [fst snd]. intros A B. apply orb_true_iff in A, B. apply orb_true_iff.
    rewrite !andb_true_iff, !Nat.ltb_lt, !Nat.eqb_eq, !Nat.leb_le in *. lia. }
  assert (TO : forall a b, first_le a b = false -> first_le b a = true).
  { intros [[a1 a2] ?] [[b1 b2] ?]. unfold first_le. cbn [fst snd]. intros A. apply orb_false_iff in A. apply orb_true_iff. destruct A as (A & B). apply andb_false_iff in B.
    rewrite andb_true_iff, !Nat.ltb_lt, !Nat.eqb_eq, !Nat.leb_le in *. rewrite Nat.ltb_ge in A. rewrite Nat.eqb_neq, Nat.leb_gt in B. lia. }
  induction 1 as [|y l O IH B]; [repeat constructor|]. cbn [insert_strand]. destruct (first_le x y) eqn:E.
  - constructor; [constructor; assumption|]. constructor; [exact E|]. eapply Forall_impl; [|exact B]. intros z Z. eapply TR; eassumption.
  - constructor; [exact IH|]. apply Forall_forall. intros z I. eapply Permutation_in in I; [|apply insert_perm]. destruct I as [<-|I]; [apply TO; exact E|]. rewrite Forall_forall in B. apply B. exact I.
Qed.
Lemma sort_sorted l : StronglySorted (fun a b => first_le a b = true) (sort_strands l).
Proof. induction l as [|x l IH]; [constructor|]. cbn [sort_strands fold_right]. apply insert_sorted. exact IH. Qed.

(** A descent from a spine start through any links, not past the end of a strand. *)
Inductive descends (lines : list str) (g : graph) (s : tokref) : tokref -> Prop :=
| de_refl : descends lines g s s
| de_step t u : descends lines g s t -> ~ stops lines t -> In u (nextTokens g t) -> descends lines g s u.
Theorem C27_order_partial lines infos fin g : good_file lines infos fin g ->
  exists l groups, strands_of lines infos fin g = Some l /\ l = concat groups /\
    Forall2 (fun s grp => In s (map fst grp) /\ (forall f, In f (map fst grp) -> descends lines g s f) /\ StronglySorted place_before (map fst grp))
      (file_exclusives 0 lines) groups.
Proof.
  intros G. assert (FO := good_forest _ _ _ _ G). unfold strands_of, analyzeStrands.
  rewrite (proj1 (starts_exact lines infos fin g (gf_spines _ _ _ _ G) (gf_links _ _ _ _ G) (gf_tracks _ _ _ _ G) (gf_opens _ _ _ _ G) (gf_manip _ _ _ _ G) (gf_last _ _ _ _ G))).
  change (file_exclusives 0 lines) with (spine_starts lines).
  assert (ND := firsts_nodup _ _ FO). unfold all_strands in ND.
  assert (L : forall s, In s (spine_starts lines) -> fst s < sf_lines (file_of lines infos g)) by (intros s; apply (inside _ _ FO)).
  assert (IFL : forall s, In s (spine_starts lines) -> in_file lines s) by (intros s; apply start_in_file).
  assert (LS : exists ls, strand_lists (file_of lines infos g) (map Some (spine_starts lines)) = Some ls /\ Forall2 (fun s grp => Permutation grp (spine_strands (file_of lines infos g) s) /\ StronglySorted (fun a b => first_le a b = true) grp) (spine_starts lines) ls).
  { clear. induction (spine_starts lines) as [|s r (ls & E & IH)]; [exists []; split; [reflexivity|constructor]|]. cbn [map strand_lists]. rewrite E. eexists. split; [reflexivity|].
    constructor; [|exact IH]. rewrite analyzeSpineStrands_eq. split; [apply sort_perm|apply sort_sorted]. }
  destruct LS as (ls & E & FA). rewrite E. exists (concat ls), ls. split; [reflexivity|]. split; [reflexivity|]. clear E.
  revert ND L IFL FA. generalize (spine_starts lines). intros starts ND L IFL FA.
  induction FA as [|s grp r ls (PG & SG) FA IH]; [constructor|].
  cbn [flat_map] in ND. rewrite map_app in ND. constructor; [|apply IH; [apply NoDup_app_parts in ND; apply ND|intros x X; apply L; right; exact X|intros x X; apply IFL; right; exact X]].
  assert (PM : Permutation (map fst grp) (map fst (spine_strands (file_of lines infos g) s))) by (apply Permutation_map; exact PG).
  split; [|split].
  - eapply Permutation_in; [symmetry; exact PM|left; reflexivity].
  - intros f I. eapply Permutation_in in I; [|exact PM]. assert (T1 : tree (file_of lines infos g) s f).
    { destruct I as [<-|I]; [apply tree_refl|]. apply (kids_below _ _ FO) in I; [apply I|apply L; left; reflexivity]. }
    assert (IS := IFL s (or_introl eq_refl)). clear -T1 IS G. induction T1 as [|t u T1 IH EN X]; [apply de_refl|]. econstructor; [exact IH| |exact X].
    intros ST. apply (stops_ends lines infos fin g t G) in ST; [congruence|]. cbn [file_of sf_next] in X. apply (linked_in_file lines infos fin g t u G X).
  - assert (NDG : NoDup (map fst grp)) by (eapply Permutation_NoDup; [symmetry; exact PM|apply NoDup_app_parts in ND; apply ND]).
    clear -SG NDG. induction SG as [|x grp SG IH B]; [constructor|]. cbn [map] in *. inversion NDG as [|? ? NI NDG']; subst. constructor; [apply IH; exact NDG'|].
    apply Forall_forall. intros y I. apply in_map_iff in I. destruct I as (z & <- & I). rewrite Forall_forall in B. specialize (B z I).
    assert (NE : fst x <> fst z) by (intros EQ; apply NI; rewrite EQ; apply in_map; exact I). destruct x as [[x1 x2] ?], z as [[z1 z2] ?]. unfold first_le in B. cbn [fst snd] in *.
    apply orb_true_iff in B. rewrite andb_true_iff, Nat.ltb_lt, Nat.eqb_eq, Nat.leb_le in B. unfold place_before. cbn [fst snd]. destruct B as [B|(-> & B)]; [left; exact B|]. right. split; [reflexivity|].
    assert (x2 <> z2) by congruence. lia.
Qed.
Print Assumptions C27_order_partial.

(** Deciding the conditions on a file, for the examples. *)
Definition merges_ok (lines : list str) (infos : list (list str)) (ln i : nat) : bool :=
  match nth_error lines ln with
  | Some p =>
      negb (match nth_error (tokens p) i with Some x => str_eqb x (S_ "*v") | None => false end && match nth_error (tokens p) (S i) with Some x => str_eqb x (S_ "*v") | None => false end)
      || (label_track (nth i (labels_at lines infos ln) []) =? label_track (nth (S i) (labels_at lines infos ln) []))%N
  | None => true
  end.
Definition good_fileb (lines : list str) : bool :=
  match analyzeSpines lines, analyzeLinks lines with
  | Some (infos, _), Fine _ =>
      forallb (fun labels => match analyzeTracks labels with Some _ => true | None => false end) infos
      && match spined lines with l :: _ => forallb isExclusiveInterpretation (tokens l) | [] => true end
      && forallb (fun l => isInterpretationLine l || forallb (fun x => negb (existsb (str_eqb x) manipulators)) (tokens l)) (spined lines)
      && forallb (fun ln => forallb (merges_ok lines infos ln) (seq 0 (match nth_error lines ln with Some p => length (tokens p) | None => 0 end))) (seq 0 (length lines))
      && match last (map Some (spined lines)) None with Some l => negb (existsb (str_eqb (S_ "*+")) (tokens l)) | None => true end
  | _, _ => false
  end.
Lemma existsb_str x l : existsb (str_eqb x) l = false -> ~ In x l.
Proof. intros E I. assert (T : existsb (str_eqb x) l = true) by (apply existsb_exists; exists x; split; [exact I|apply str_eqb_eq; reflexivity]). congruence. Qed.
Lemma good_fileb_spec lines infos fin g : analyzeSpines lines = Some (infos, fin) -> analyzeLinks lines = Fine g -> good_fileb lines = true -> good_file lines infos fin g.
Proof.
  intros HS HL B. unfold good_fileb in B. rewrite HS, HL in B. apply andb_prop in B. destruct B as (B & E). apply andb_prop in B. destruct B as (B & D). apply andb_prop in B. destruct B as (B & C). apply andb_prop in B. destruct B as (A & B).
  rewrite forallb_forall in A, C, D. constructor; auto.
  - apply Forall_forall. intros x I. specialize (A x I). destruct (analyzeTracks x); congruence.
  - intros l t Hd I. destruct (spined lines) as [|l0 r]; [discriminate|]. cbn in Hd. injection Hd as ->. rewrite forallb_forall in B. apply B. exact I.
  - intros l t I J M. specialize (C l I). apply orb_prop in C. destruct C as [C|C]; [exact C|]. rewrite forallb_forall in C. specialize (C t J). apply negb_true_iff, existsb_str in C. contradiction.
  - intros ln p i N E1 E2. assert (L1 : ln < length lines) by (apply nth_error_Some; congruence). assert (L2 : i < length (tokens p)) by (apply nth_error_Some; rewrite E1; discriminate).
    specialize (D ln). rewrite in_seq in D. specialize (D ltac:(lia)). rewrite N, forallb_forall in D. specialize (D i). rewrite in_seq in D. specialize (D ltac:(lia)).
    unfold merges_ok in D. rewrite N, E1, E2 in D. unfold V in D. cbn [negb andb orb] in D. apply N.eqb_eq. exact D.
  - intros l L. rewrite L in E. apply negb_true_iff, existsb_str in E. exact E.
Qed.

(** A file with a split and a merge, a layout comment in each voice, and null tokens. *)
Definition c27_file : list str :=
  [T [S_ "**kern"; S_ "**dynam"]; T [S_ "*^"; S_ "*"]; T [S_ "!LO:N:vis=4"; S_ "!LO:N:vis=8"; S_ "!"]; T [S_ "4c"; S_ "2e"; S_ "f"];
   T [S_ "4d"; S_ "."; S_ "."]; T [S_ "*v"; S_ "*v"; S_ "*"]; T [S_ "2f"; S_ "p"]; T [S_ "*-"; S_ "*-"]].
Definition with_file (lines : list str) (P : list (list str) -> sstate -> graph -> Prop) : Prop :=
  match analyzeSpines lines, analyzeLinks lines with Some (i, f), Fine g => P i f g | _, _ => False end.
Lemma with_good lines (P Q : list (list str) -> sstate -> graph -> Prop) :
  good_fileb lines = true -> with_file lines P -> (forall i f g, good_file lines i f g -> P i f g -> Q i f g) -> exists i f g, good_file lines i f g /\ Q i f g.
Proof.
  intros B X H. assert (B' := B). unfold good_fileb in B'. unfold with_file in X. destruct (analyzeSpines lines) as [[i f]|] eqn:E1; [|discriminate]. destruct (analyzeLinks lines) as [g| |] eqn:E2; try discriminate.
  exists i, f, g. assert (G := good_fileb_spec lines i f g E1 E2 B). split; [exact G|]. apply H; auto.
Qed.
Lemma with_accepted lines (P : list (list str) -> sstate -> graph -> Prop) : with_file lines P -> exists i f g, analyzeSpines lines = Some (i, f) /\ analyzeLinks lines = Fine g /\ P i f g.
Proof. unfold with_file. destruct (analyzeSpines lines) as [[i f]|]; [|contradiction]. destruct (analyzeLinks lines) as [g| |]; try contradiction. intros X. exists i, f, g. auto. Qed.
Fixpoint follow (F : sfile) (n : nat) (f : tokref) : option tokref :=
  match n with
  | O => Some f
  | S k => if ends F f then None else match next0 F f with Some u => follow F k u | None => None end
  end.
Lemma follow_path F n : forall f t, follow F n f = Some t -> on_path F f t.
Proof.
  induction n as [|n IH]; intros f t E; cbn [follow] in E; [injection E as <-; apply path_first|]. destruct (ends F f) eqn:EF; [discriminate|]. destruct (next0 F f) as [u|] eqn:EN; [|discriminate].
  apply IH in E. clear IH. induction E as [|a b P IH EA X]; [econstructor; [apply path_first|exact EF|exact EN]|econstructor; eassumption].
Qed.

(** Its strands: the first voice of the first spine, the second voice, the second spine. *)
Example C27_nonvacuous : exists infos fin g, good_file c27_file infos fin g /\
  strands_of c27_file infos fin g = Some [((0, 0), Some (7, 0)); ((2, 1), Some (5, 1)); ((0, 1), Some (7, 1))] /\
  strand_path c27_file g (2, 1) (4, 1) /\ in_file c27_file (4, 1) /\
  strandIndex (file_of c27_file infos g) [((0, 0), Some (7, 0)); ((2, 1), Some (5, 1)); ((0, 1), Some (7, 1))] (4, 1) = Some 1.
Proof.
  apply (with_good c27_file (fun i f g => strands_of c27_file i f g = Some [((0, 0), Some (7, 0)); ((2, 1), Some (5, 1)); ((0, 1), Some (7, 1))] /\
    follow (file_of c27_file i g) 2 (2, 1) = Some (4, 1) /\ strandIndex (file_of c27_file i g) [((0, 0), Some (7, 0)); ((2, 1), Some (5, 1)); ((0, 1), Some (7, 1))] (4, 1) = Some 1));
    [vm_compute; reflexivity|vm_compute; split; [|split]; reflexivity|].
  intros i f g G (A & B & C). split; [exact A|]. split; [|split; [|exact C]].
  - apply (path_iff c27_file _ _ _ (2, 1) (4, 1) G); [exists (T [S_ "!LO:N:vis=4"; S_ "!LO:N:vis=8"; S_ "!"]); repeat split; vm_compute; lia|]. apply follow_path in B. exact B.
  - exists (T [S_ "4d"; S_ "."; S_ "."]). repeat split; vm_compute; lia.
Qed.

(** The claim without the conditions is false.  In the file above the note after the merge is
    on the first strand, but carries the number of the second: numbers are written from the
    start of a strand to the end of the file, past the end of the strand. *)
Theorem C27_refuted : exists lines infos fin g, good_file lines infos fin g /\ exists l f e t, strands_of lines infos fin g = Some l /\
  nth_error l 0 = Some (f, e) /\ strand_path lines g f t /\ in_file lines t /\ strandIndex (file_of lines infos g) l t = Some 1.
Proof.
  exists c27_file. apply (with_good c27_file (fun i f g => strands_of c27_file i f g = Some [((0, 0), Some (7, 0)); ((2, 1), Some (5, 1)); ((0, 1), Some (7, 1))] /\
    follow (file_of c27_file i g) 6 (0, 0) = Some (6, 0) /\ strandIndex (file_of c27_file i g) [((0, 0), Some (7, 0)); ((2, 1), Some (5, 1)); ((0, 1), Some (7, 1))] (6, 0) = Some 1));
    [vm_compute; reflexivity|vm_compute; split; [|split]; reflexivity|].
  intros i f g G (A & B & C). exists [((0, 0), Some (7, 0)); ((2, 1), Some (5, 1)); ((0, 1), Some (7, 1))], (0, 0), (Some (7, 0)), (6, 0).
  split; [exact A|]. split; [reflexivity|]. split; [|split; [|exact C]].
  - apply (path_iff c27_file _ _ _ (0, 0) (6, 0) G); [exists (T [S_ "**kern"; S_ "**dynam"]); repeat split; vm_compute; lia|]. apply follow_path in B. exact B.
  - exists (T [S_ "2f"; S_ "p"]). repeat split; vm_compute; lia.
Qed.
Print Assumptions C27_refuted.

(** Merging two different spines is accepted, and then the strands of both go on below the
    merge: both end at the same terminator. *)
Definition c27_merged : list str := [T [S_ "**kern"; S_ "**kern"]; T [S_ "*v"; S_ "*v"]; T [S_ "4c"]; T [S_ "*-"]].
Definition tracks_ok (infos : list (list str)) : bool := forallb (fun labels => match analyzeTracks labels with Some _ => true | None => false end) infos.
Lemma tracks_ok_spec infos : tracks_ok infos = true -> Forall (fun labels => analyzeTracks labels <> None) infos.
Proof. intros H. apply Forall_forall. intros x I. unfold tracks_ok in H. rewrite forallb_forall in H. specialize (H x I). destruct (analyzeTracks x); congruence. Qed.
Theorem C27_merge_refuted : exists lines infos fin g, analyzeSpines lines = Some (infos, fin) /\ analyzeLinks lines = Fine g /\
  (Forall (fun labels => analyzeTracks labels <> None) infos /\ opens_cleanly lines /\ manipulators_on_interpretation_lines lines /\ no_open_spine lines) /\
  strands_of lines infos fin g = Some [((0, 0), Some (3, 0)); ((0, 1), Some (3, 0))].
Proof.
  exists c27_merged. destruct (with_accepted c27_merged (fun i f g => tracks_ok i = true /\ strands_of c27_merged i f g = Some [((0, 0), Some (3, 0)); ((0, 1), Some (3, 0))])) as (i & f & g & A & B & C & D);
    [vm_compute; split; reflexivity|].
  exists i, f, g. split; [exact A|]. split; [exact B|]. split; [|exact D]. split; [apply tracks_ok_spec; exact C|]. split; [|split].
  - intros l t Hd I. vm_compute in Hd. injection Hd as <-. vm_compute in I. repeat destruct I as [<-|I]; try reflexivity; contradiction.
  - intros l t I J M. vm_compute in I. repeat destruct I as [<-|I]; try reflexivity; try contradiction. vm_compute in J, M. exfalso. repeat destruct J as [<-|J]; repeat destruct M as [M|M]; try discriminate; contradiction.
  - intros l L. vm_compute in L. injection L as <-. intros I. vm_compute in I. repeat destruct I as [I|I]; try discriminate; contradiction.
Qed.
Print Assumptions C27_merge_refuted.

(** A file whose last line opens a spine is accepted by the spine analysis, but the strand
    analysis raises. *)
Definition c27_open : list str := [T [S_ "**kern"]; T [S_ "4c"]; T [S_ "*+"]].
Theorem C27_open_refuted : exists lines infos fin g, analyzeSpines lines = Some (infos, fin) /\ analyzeLinks lines = Fine g /\
  (Forall (fun labels => analyzeTracks labels <> None) infos /\ opens_cleanly lines) /\ strands_of lines infos fin g = None.
Proof.
  exists c27_open. destruct (with_accepted c27_open (fun i f g => tracks_ok i = true /\ strands_of c27_open i f g = None)) as (i & f & g & A & B & C & D); [vm_compute; split; reflexivity|].
  exists i, f, g. split; [exact A|]. split; [exact B|]. split; [|exact D]. split; [apply tracks_ok_spec; exact C|].
  intros l t Hd I. vm_compute in Hd. injection Hd as <-. vm_compute in I. repeat destruct I as [<-|I]; try reflexivity; contradiction.
Qed.
Print Assumptions C27_open_refuted.

(** ** C26: null tokens *)

Definition is_data (x : str) : Prop := starts_with (S_ "*") x = false /\ starts_with (S_ "!") x = false /\ starts_with (S_ "=") x = false.
Definition sounds_at (lines : list str) (t : tokref) : Prop := exists x, token_is lines t x /\ is_data x /\ x <> S_ ".".
Definition null_at (lines : list str) (t : tokref) : Prop := token_is lines t (S_ ".").

Lemma is_data_iff x : isDataToken x = true <-> is_data x.
Proof. unfold isDataToken, is_data. rewrite negb_true_iff, !orb_false_iff. intuition. Qed.
Lemma data_null x : is_data x -> isNullToken x = true <-> x = S_ ".".
Proof.
  intros (D1 & D2 & _). unfold isNullToken. destruct (str_eqb x (S_ ".")) eqn:E0; [apply str_eqb_eq in E0; intuition|]. cbn [orb].
  destruct (str_eqb x (S_ "*")) eqn:E1; [apply str_eqb_eq in E1; subst x; discriminate|]. destruct (str_eqb x (S_ "!")) eqn:E2; [apply str_eqb_eq in E2; subst x; discriminate|].
  split; [discriminate|]. intros ->. discriminate.
Qed.
Lemma sounds_iff lines infos g t : in_file lines t -> sounds_at lines t <-> sounding (file_of lines infos g) t.
Proof.
  intros I. unfold sounding. split.
  - intros (x & X & D & NX). rewrite (token_is_text lines infos g t x X). split; [apply is_data_iff; exact D|]. destruct (isNullToken x) eqn:E; [|reflexivity]. apply (data_null x D) in E. contradiction.
  - intros (D & NX). eexists. split; [apply (text_token_is lines infos g t I)|]. apply is_data_iff in D. split; [exact D|]. intros E. apply (data_null _ D) in E. congruence.
Qed.
Lemma null_iff lines infos g t : in_file lines t -> null_at lines t <-> null_data (file_of lines infos g) t.
Proof.
  intros I. unfold null_data, null_at. split.
  - intros X. rewrite (token_is_text lines infos g t _ X). split; reflexivity.
  - intros (D & NX). apply is_data_iff in D. apply (data_null _ D) in NX. rewrite <- NX at 1. apply (text_token_is lines infos g t I).
Qed.

(** Partial: a null token with a data token above it in its strand refers to the last such
    token; every token that is not null refers to itself; and the analysis does not raise.
    Missing: a null token with no data token above it in its strand (next theorem). *)
Theorem C26_partial lines infos fin g : good_file lines infos fin g ->
  exists l m, strands_of lines infos fin g = Some l /\ resolveNullTokens (file_of lines infos g) l = Some m /\
    (forall f e d t, In (f, e) l -> strand_path lines g f d -> strand_path lines g d t -> sounds_at lines d -> null_at lines t ->
       (forall x, strand_path lines g d x -> strand_path lines g x t -> sounds_at lines x -> x = d) -> nullResolution m t = d) /\
    (forall t, in_file lines t -> ~ null_at lines t -> nullResolution m t = t).
Proof.
  intros G. assert (FO := good_forest _ _ _ _ G). destruct (good_strands _ _ _ _ G) as (l & E & P).
  assert (IA : forall s, In s l -> In s (all_strands (file_of lines infos g) (spine_starts lines))) by (intros s; apply Permutation_in; exact P).
  assert (NB : ~ null_data (file_of lines infos g) (length lines, 0)).
  { unfold null_data. cbn [file_of sf_text]. unfold text_at. cbn [fst snd]. rewrite (nth_overflow lines) by apply le_n. intros (_ & X). vm_compute in X. discriminate. }
  destruct (others_themselves _ _ FO l _ P NB) as (m & EM & _). exists l, m. split; [exact E|]. split; [exact EM|]. split.
  - intros f e d t I PD PT SD NT BT. assert (FF := strand_in_file lines infos fin g f e G (IA _ I)). apply (path_iff _ _ _ _ f d G FF) in PD.
    assert (FD := path_in_file lines infos fin g f d G FF PD). apply (path_iff _ _ _ _ d t G FD) in PT. assert (FT := path_in_file lines infos fin g d t G FD PT).
    apply (sounds_iff _ infos g _ FD) in SD. apply (null_iff _ infos g _ FT) in NT.
    destruct (null_in_strand _ _ FO l f e d t P I PD PT SD NT) as (m' & EM' & R); [|rewrite EM in EM'; injection EM' as ->; exact R].
    intros x PX PX' ND _ SX. assert (FX := path_in_file lines infos fin g d x G FD PX). apply ND. apply BT; [apply (path_iff _ _ _ _ d x G FD); exact PX|apply (path_iff _ _ _ _ x t G FX); exact PX'|apply (sounds_iff _ infos g _ FX); exact SX].
  - intros t FT NT. rewrite (null_iff _ infos g _ FT) in NT. destruct (others_themselves _ _ FO l t P NT) as (m' & EM' & R). rewrite EM in EM'. injection EM' as ->. exact R.
Qed.
Print Assumptions C26_partial.
Definition resolved (lines : list str) (i : list (list str)) (f : sstate) (g : graph) (t : tokref) : option tokref :=
  match strands_of lines i f g with
  | Some l => match resolveNullTokens (file_of lines i g) l with Some m => Some (nullResolution m t) | None => None end
  | None => None
  end.
Example C26_nonvacuous : exists infos fin g, good_file c27_file infos fin g /\
  (resolved c27_file infos fin g (4, 1) = Some (3, 1) /\ resolved c27_file infos fin g (4, 2) = Some (3, 2)).
Proof.
  apply (with_good c27_file (fun i f g => resolved c27_file i f g (4, 1) = Some (3, 1) /\ resolved c27_file i f g (4, 2) = Some (3, 2)));
    [vm_compute; reflexivity|vm_compute; split; reflexivity|]. intros i f g _ X. exact X.
Qed.

(** A null token with no data token above it in its spine refers to a note of another spine:
    the last data token seen is not forgotten between strands. *)
Definition c26_file : list str := [T [S_ "**kern"; S_ "**kern"]; T [S_ "4c"; S_ "."]; T [S_ "*-"; S_ "*-"]].
Theorem C26_refuted : exists lines infos fin g, good_file lines infos fin g /\ exists l m, strands_of lines infos fin g = Some l /\
  resolveNullTokens (file_of lines infos g) l = Some m /\
  In ((0, 1), Some (2, 1)) l /\ strand_path lines g (0, 1) (1, 1) /\ null_at lines (1, 1) /\ nullResolution m (1, 1) = (1, 0) /\ token_is lines (1, 0) (S_ "4c").
Proof.
  exists c26_file. apply (with_good c26_file (fun i f g => resolved c26_file i f g (1, 1) = Some (1, 0) /\ strands_of c26_file i f g = Some [((0, 0), Some (2, 0)); ((0, 1), Some (2, 1))] /\ follow (file_of c26_file i g) 1 (0, 1) = Some (1, 1)));
    [vm_compute; reflexivity|vm_compute; split; [|split]; reflexivity|].
  intros i f g G (A & B & C). unfold resolved in A. rewrite B in A. destruct (resolveNullTokens (file_of c26_file i g) [((0, 0), Some (2, 0)); ((0, 1), Some (2, 1))]) as [m|] eqn:EM; [|discriminate]. injection A as A.
  exists [((0, 0), Some (2, 0)); ((0, 1), Some (2, 1))], m. split; [exact B|]. split; [exact EM|]. split; [right; left; reflexivity|]. split; [|split; [|split]].
  - apply (path_iff c26_file _ _ _ (0, 1) (1, 1) G); [exists (T [S_ "**kern"; S_ "**kern"]); repeat split; vm_compute; lia|]. apply follow_path in C. exact C.
  - exists (T [S_ "4c"; S_ "."]). split; vm_compute; reflexivity.
  - exact A.
  - exists (T [S_ "4c"; S_ "."]). split; vm_compute; reflexivity.
Qed.
Print Assumptions C26_refuted.

(** ** C82: layout comments *)

(** What a layout comment can belong to: data, a barline, or an interpretation other than
    [*], an exclusive interpretation or a spine manipulator. *)
Definition can_have_layout (x : str) : Prop :=
  is_data x \/ starts_with (S_ "=") x = true \/ (starts_with (S_ "*") x = true /\ x <> S_ "*" /\ starts_with (S_ "**") x = false /\ ~ In x manipulators).
Definition has_layout_at (lines : list str) (t : tokref) : Prop := exists x, token_is lines t x /\ can_have_layout x.
(** A layout comment, not one to be ignored. *)
Definition layout_comment (lines : list str) (c : tokref) : Prop := exists x, token_is lines c x /\ starts_with (S_ "!LO:") x = true /\ ~ exists a b, x = a ++ S_ ":ignore" ++ b.

Lemma takes_iff x : takes_layout x = true <-> can_have_layout x.
Proof.
  unfold takes_layout, can_have_layout. rewrite !orb_true_iff, !andb_true_iff, is_data_iff, !negb_true_iff. unfold isManipulatorToken.
  assert (K := kind_spec x). unfold isExclusiveInterpretation in K. split.
  - intros [[D|D]|((A & B) & C)]; [auto|auto|]. right. right. split; [exact A|]. split; [intros ->; discriminate|]. destruct (kind x); try discriminate. destruct K; split; assumption.
  - intros [D|[D|(A & B & C & D)]]; [auto|auto|]. right. split; [split; [exact A|]|].
    + destruct (str_eqb x (S_ "*")) eqn:E; [apply str_eqb_eq in E; contradiction|reflexivity].
    + destruct (kind x); [..|reflexivity]; try (exfalso; apply D; rewrite K; unfold manipulators; cbn [In]; tauto). destruct K as (_ & K). congruence.
Qed.
Lemma has_layout_iff lines infos g t : in_file lines t -> has_layout_at lines t <-> takes_layout (sf_text (file_of lines infos g) t) = true.
Proof.
  intros I. split.
  - intros (x & X & C). rewrite (token_is_text lines infos g t x X). apply takes_iff. exact C.
  - intros C. eexists. split; [apply (text_token_is lines infos g t I)|]. apply takes_iff. exact C.
Qed.
Lemma comment_iff lines infos g t : in_file lines t -> layout_comment lines t <-> is_layout (sf_text (file_of lines infos g) t) = true /\ not_ignored (file_of lines infos g) t.
Proof.
  intros I. unfold not_ignored. rewrite contains_false. split.
  - intros (x & X & A & B). rewrite (token_is_text lines infos g t x X). split; [exact A|exact B].
  - intros (A & B). eexists. split; [apply (text_token_is lines infos g t I)|]. split; [exact A|exact B].
Qed.

(** The comments linked to a token are exactly the layout comments above it in its strand with
    nothing that could have them in between, provided the strand ends; they are in the order
    of their lines, none twice. *)
Theorem C82_layout_comments lines infos fin g : good_file lines infos fin g ->
  exists l, strands_of lines infos fin g = Some l /\
    forall x, in_file lines x ->
      (forall c, In c (linked_parameters (file_of lines infos g) l x) <->
        in_file lines c /\ layout_comment lines c /\ has_layout_at lines x /\ strand_path lines g c x /\
        (forall y, strand_path lines g c y -> strand_path lines g y x -> has_layout_at lines y -> y = x) /\
        exists z, strand_path lines g x z /\ stops lines z) /\
      StronglySorted (fun a b => fst a <= fst b) (linked_parameters (file_of lines infos g) l x) /\ NoDup (linked_parameters (file_of lines infos g) l x).
Proof.
  intros G. assert (FO := good_forest _ _ _ _ G). destruct (good_strands _ _ _ _ G) as (l & E & P).
  assert (IA : forall s, In s l -> In s (all_strands (file_of lines infos g) (spine_starts lines))) by (intros s; apply Permutation_in; exact P).
  assert (HB := file_back lines infos fin g (gf_spines _ _ _ _ G) (gf_links _ _ _ _ G) (gf_tracks _ _ _ _ G) (gf_opens _ _ _ _ G) (gf_manip _ _ _ _ G) (gf_merges _ _ _ _ G)).
  exists l. split; [exact E|]. intros x FX. split; [|split].
  - intros c. rewrite (linked_in _ _ FO HB l x c P). split.
    + intros (f & e & I & PC & IL & NI & TL & PX & NE & BT). assert (FF := strand_in_file lines infos fin g f _ G (IA _ I)). assert (FC := path_in_file lines infos fin g f c G FF PC).
      split; [exact FC|]. split; [apply (comment_iff lines infos g c FC); split; assumption|]. split; [apply (has_layout_iff lines infos g x FX); exact TL|].
      split; [apply (path_iff _ _ _ _ c x G FC); exact PX|]. split.
      * intros y PY PY' HY. apply (path_iff _ _ _ _ c y G FC) in PY. assert (FY := path_in_file lines infos fin g c y G FC PY). apply (path_iff _ _ _ _ y x G FY) in PY'. apply (has_layout_iff lines infos g y FY) in HY.
        destruct (ref_eqb y x) eqn:EY; [apply ref_eqb_eq in EY; exact EY|]. exfalso. assert (NY : y <> x) by (intros ->; rewrite ref_eqb_refl in EY; discriminate).
        destruct (ref_eqb y c) eqn:EC; [apply ref_eqb_eq in EC; subst y|].
        { unfold is_layout in IL. apply takes_iff in HY. apply starts_iff in IL. destruct IL as (w & IL). rewrite IL in HY. destruct HY as [(_ & HY & _)|[HY|(HY & _)]]; cbn in HY; discriminate. }
        { rewrite (BT y PY PY') in HY; [discriminate| |exact NY]. intros ->. rewrite ref_eqb_refl in EC. discriminate. }
      * destruct (firsts_tree _ _ FO f _ (IA _ I)) as (_ & _ & _ & L). assert (W := whole_last _ _ FO f L). assert (EE := IA _ I). apply (strand_in _ _ FO) in EE. destruct EE as (EE & _). rewrite <- EE in W. destruct W as (PE & EN).
        assert (PFX : on_path (file_of lines infos g) f x) by (apply (path_trans (file_of lines infos g) f c x); assumption). exists e. assert (FE := path_in_file lines infos fin g f e G FF PE).
        split; [|apply (stops_ends lines infos fin g e G FE); exact EN]. apply (path_iff _ _ _ _ x e G FX). destruct (path_forward _ f x e PFX PE) as [A|A]; [exact A|].
        apply path_cases in A. destruct A as [->|(A & _)]; [apply path_first|congruence].
    + intros (FC & LC & HX & PX & BT & z & PZ & SZ). apply (path_iff _ _ _ _ c x G FC) in PX. apply (path_iff _ _ _ _ x z G FX) in PZ. assert (FZ := path_in_file lines infos fin g x z G FX PZ). apply (stops_ends lines infos fin g z G FZ) in SZ.
      destruct (file_reached lines infos fin g (gf_spines _ _ _ _ G) (gf_links _ _ _ _ G) (gf_tracks _ _ _ _ G) (gf_opens _ _ _ _ G) (gf_manip _ _ _ _ G) (fst c) c (le_n _) FC) as (s & S1 & T1).
      destruct (tree_strand _ _ FO s c S1 T1) as (f & e & IF & PF). destruct (firsts_tree _ _ FO f e IF) as (_ & _ & _ & L). assert (W := whole_last _ _ FO f L). assert (EE := IF). apply (strand_in _ _ FO) in EE. destruct EE as (EE & _). rewrite <- EE in W.
      destruct e as [e|].
      * exists f, e. split; [eapply Permutation_in; [symmetry; exact P|exact IF]|]. split; [exact PF|]. apply (comment_iff lines infos g c FC) in LC. destruct LC as (IL & NI). apply (has_layout_iff lines infos g x FX) in HX.
        assert (NE : c <> x). { intros ->. apply takes_iff in HX. unfold is_layout in IL. apply starts_iff in IL. destruct IL as (w & IL). rewrite IL in HX. destruct HX as [(_ & HX & _)|[HX|(HX & _)]]; cbn in HX; discriminate. }
        repeat split; auto. intros y PY PY' N1 N2. assert (FY := path_in_file lines infos fin g c y G FC PY). destruct (takes_layout (sf_text (file_of lines infos g) y)) eqn:TY; [|reflexivity].
        exfalso. apply N2. apply BT; [apply (path_iff _ _ _ _ c y G FC); exact PY|apply (path_iff _ _ _ _ y x G FY); exact PY'|apply (has_layout_iff lines infos g y FY); exact TY].
      * exfalso. destruct W as (w & PW & EW & NW). assert (PFZ : on_path (file_of lines infos g) f z) by (eapply (path_trans (file_of lines infos g)); [exact PF|apply (path_trans (file_of lines infos g) c x z); assumption]).
        destruct (path_forward _ f z w PFZ PW) as [A|A]; apply path_cases in A; [destruct A as [->|(A & _)]; congruence|destruct A as [->|(_ & b & B & _)]; congruence].
  - apply (linked_keeps _ _ FO HB (StronglySorted (fun a b => fst a <= fst b)) l P); [|constructor]. intros c k. apply (add_parameters_sorted _ HB).
  - apply (linked_keeps _ _ FO HB (@NoDup tokref) l P); [|constructor]. intros c k. apply add_parameters_nodup.
Qed.
Print Assumptions C82_layout_comments.
Definition linked_at (lines : list str) (i : list (list str)) (f : sstate) (g : graph) (t : tokref) : option (list tokref) :=
  match strands_of lines i f g with Some l => Some (linked_parameters (file_of lines i g) l t) | None => None end.
Example C82_nonvacuous : exists infos fin g, good_file c27_file infos fin g /\
  (linked_at c27_file infos fin g (3, 0) = Some [(2, 0)] /\ linked_at c27_file infos fin g (3, 1) = Some [(2, 1)] /\ linked_at c27_file infos fin g (4, 0) = Some []).
Proof.
  apply (with_good c27_file (fun i f g => linked_at c27_file i f g (3, 0) = Some [(2, 0)] /\ linked_at c27_file i f g (3, 1) = Some [(2, 1)] /\ linked_at c27_file i f g (4, 0) = Some []));
    [vm_compute; reflexivity|vm_compute; split; [|split]; reflexivity|]. intros i f g _ X. exact X.
Qed.
