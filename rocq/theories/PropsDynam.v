(** C138: the value of a dynamic written to a Humdrum file and read back. *)
From Coq Require Import Lia ZArith.
From Verif Require Import DateModel PyStr PyStrProofs LayoutModel LayoutProofs BarModel SignifierModel SignifierProofs TokenProofs2 DynamModel DynamProofs DynamProofs2.

(** ** The word of a text *)
Lemma join_mid sep l1 w l2 : join [sep] (l1 ++ w :: l2)
  = (match l1 with [] => [] | _ => join [sep] l1 ++ [sep] end) ++ w ++ (match l2 with [] => [] | _ => sep :: join [sep] l2 end).
Proof.
  induction l1 as [|x l1 IH].
  - cbn [app]. destruct l2; cbn [join]; [rewrite app_nil_r|]; reflexivity.
  - destruct l1 as [|y l1].
    + change (join [sep] ([x] ++ w :: l2)) with (x ++ [sep] ++ join [sep] ([] ++ w :: l2)). rewrite IH. cbn [join]. rewrite <- !app_assoc. reflexivity.
    + change (join [sep] ((x :: y :: l1) ++ w :: l2)) with (x ++ [sep] ++ join [sep] ((y :: l1) ++ w :: l2)). rewrite IH.
      change (join [sep] (x :: y :: l1)) with (x ++ [sep] ++ join [sep] (y :: l1)). rewrite <- !app_assoc. reflexivity.
Qed.
Lemma word_place w v : In w (words v) -> exists a b, v = a ++ w ++ b /\ bounded a b.
Proof.
  unfold words. rewrite filter_In. intros [I _]. apply in_split in I as (l1 & l2 & E).
  pose proof (join_split " " v) as J. rewrite E, join_mid in J. symmetry in J.
  eexists _, _. split; [exact J|]. split.
  - destruct l1; [left; reflexivity|right; eexists; reflexivity].
  - destruct l2; [left; reflexivity|right; eexists; reflexivity].
Qed.
Lemma words_place a w b : bounded a b -> standard w -> words (a ++ w ++ b) = words a ++ [w] ++ words b.
Proof.
  intros [A B] W. pose proof (words_single w (std_lacks " " w eq_refl W) (std_nonempty w W)) as X.
  assert (Y : words (w ++ b) = [w] ++ words b).
  { destruct B as [->|(b' & ->)]; [rewrite app_nil_r, X; reflexivity|]. rewrite words_mid, X, words_blank. reflexivity. }
  destruct A as [->|(a' & ->)]; [exact Y|]. rewrite words_last, <- app_assoc. cbn [app]. rewrite words_mid, Y. reflexivity.
Qed.

(** ** Finding the dynamic *)
Lemma space_no_word c : forall patt, In patt dynamicPatterns -> patt (c :: []) = true -> is_space c = false.
Proof.
  intros patt I H. pose proof (std_non_space _ (pattern_std patt _ I H)) as N. cbn in N.
  unfold non_space in N. destruct (is_space c); [discriminate|reflexivity].
Qed.
Lemma span_word w b : standard w -> (b = [] \/ exists b', b = " "%char :: b') -> span non_space (w ++ b) = (w, b).
Proof.
  intros W B. apply span_app_all; [apply std_non_space, W|]. destruct B as [->|(b' & ->)]; [exact I|reflexivity].
Qed.
Lemma search_spaced_later patt spaced s a : forall before, (forall bf, search_spaced patt spaced bf s <> None) ->
  search_spaced patt spaced before (a ++ s) <> None.
Proof.
  induction a as [|c a IH]; intros before H; [apply H|]. cbn [app search_spaced].
  destruct (if is_space c then _ else None); [discriminate|]. apply IH, H.
Qed.
Lemma find_dynamic_some v w : In w (words v) -> standard w -> find_whole v = None -> find_dynamic v <> None.
Proof.
  intros I W N F. apply word_place in I as (a & b & -> & A & B).
  pose proof (std_pattern w W) as P. apply existsb_exists in P as (patt & P & H).
  assert (T : forall d spaced, In (patt, d, spaced) attempts).
  { intros d spaced. unfold attempts. apply in_flat_map. exists patt. split; [exact P|]. destruct d, spaced; cbn; auto 10. }
  assert (Z : forall d spaced, search patt d spaced (a ++ w ++ b) = None).
  { intros d spaced. pose proof (first_some_none _ _ F _ (T d spaced)) as Q. cbn in Q.
    destruct (search patt d spaced (a ++ w ++ b)); [discriminate|reflexivity]. }
  destruct A as [->|(a' & ->)]; [destruct B as [->|(b' & ->)]|destruct B as [->|(b' & ->)]].
  - cbn [app] in N. rewrite app_nil_r, find_whole_std in N by exact W. discriminate.
  - specialize (Z AtStart true). cbn [app search] in Z. unfold match_word in Z. rewrite span_word in Z by eauto. rewrite H in Z. discriminate.
  - specialize (Z AfterSpace false). cbn [search] in Z. rewrite <- app_assoc in Z. revert Z. apply search_spaced_later. intro bf.
    cbn [app search_spaced]. change (is_space " ") with true. unfold match_word. rewrite span_word by auto. rewrite H. discriminate.
  - specialize (Z AfterSpace true). cbn [search] in Z. rewrite <- app_assoc in Z. revert Z. apply search_spaced_later. intro bf.
    cbn [app search_spaced]. change (is_space " ") with true. unfold match_word. rewrite span_word by eauto. rewrite H. discriminate.
Qed.

(** No word of the text goes on after the text's last word. *)
Definition last_unextended (v : str) : Prop :=
  forall a l x y, v = a ++ " "%char :: l -> char_in " " l = false -> In (l ++ x :: y) (words v) -> False.

(** The text behind the place of the word, as written. *)
Definition tighten (b : str) : str :=
  match b with
  | " "%char :: " "%char :: t => " "%char :: t
  | _ => b
  end.

Lemma replace_first_head old new t : replace_first old new (old ++ t) = new ++ t.
Proof.
  assert (S : starts_with old (old ++ t) = true) by (apply starts_iff; eauto).
  destruct (old ++ t) eqn:E; cbn [replace_first]; rewrite S, <- E, skipn_app, skipn_all, Nat.sub_diag; reflexivity.
Qed.
Lemma contains_percent o a u : char_in "%" a = false -> char_in "%" u = false ->
  contains ("%"%char :: o) (a ++ "%"%char :: u) = starts_with o u.
Proof.
  intros A U. induction a as [|c a IH].
  - cbn [app contains starts_with]. rewrite Ascii.eqb_refl. cbn [andb].
    enough (N : contains ("%"%char :: o) u = false) by (rewrite N; apply orb_false_r).
    induction u as [|x u IHu]; [reflexivity|]. rewrite char_in_cons in U. apply orb_false_iff in U as [U1 U2].
    cbn [contains starts_with]. rewrite U1. exact (IHu U2).
  - rewrite char_in_cons in A. apply orb_false_iff in A as [A1 A2]. cbn [app contains starts_with]. rewrite A1. exact (IH A2).
Qed.
Lemma second_replace a b : char_in "%" a = false -> char_in "%" b = false ->
  replace_first (S_ "%s  ") (S_ "%s ") (a ++ S_ "%s" ++ b) = a ++ S_ "%s" ++ tighten b.
Proof.
  intros A B. destruct (starts_with (S_ "  ") b) eqn:S.
  - apply starts_iff in S as (t & ->). change (S_ "%s  ") with ("%"%char :: S_ "s  ").
    rewrite replace_first_percent; [reflexivity|exact A|reflexivity].
  - rewrite replace_first_absent.
    + assert (T : tighten b = b).
      { destruct b as [|c [|d b]]; [reflexivity| |]; cbn [tighten].
        - destruct c as [[] [] [] [] [] [] [] []]; reflexivity.
        - change (starts_with (S_ "  ") (c :: d :: b)) with (Ascii.eqb " " c && (Ascii.eqb " " d && true)) in S.
          destruct (Ascii.eqb " " c) eqn:C.
          + apply Ascii.eqb_eq in C. subst c. destruct (Ascii.eqb " " d) eqn:D; [discriminate|].
            apply Ascii.eqb_neq in D. destruct d as [[] [] [] [] [] [] [] []]; try reflexivity. congruence.
          + apply Ascii.eqb_neq in C. destruct c as [[] [] [] [] [] [] [] []]; try reflexivity. congruence. }
      rewrite T. reflexivity.
    + change (S_ "%s" ++ b) with ("%"%char :: "s"%char :: b). change (S_ "%s  ") with ("%"%char :: S_ "s  ").
      rewrite contains_percent; [exact S|exact A|]. exact B.
Qed.

Lemma last_of_end s c : last_of (s ++ [c]) = [c].
Proof. unfold last_of. rewrite rev_app_distr. reflexivity. Qed.

(** The place of the dynamic and what is written of the text. *)
Lemma found_format v d spaced f : plain v -> char_in "%" v = false -> last_unextended v -> find_whole v = None ->
  find_dynamic v = Some (d, spaced, f) ->
  exists a b, v = a ++ f_word f ++ b /\ bounded a b /\ standard (f_word f) /\
    format_of d spaced f v = a ++ S_ "%s" ++ tighten b.
Proof.
  intros P Q L N F. apply first_some_in in F as (((patt, d'), spaced') & I & F).
  destruct (search patt d' spaced' v) as [g|] eqn:S; [|discriminate]. injection F as -> -> ->.
  assert (Ip : In patt dynamicPatterns).
  { unfold attempts in I. apply in_flat_map in I as (p & Ip & I). cbn in I. destruct I as [I|[I|[I|[I|[]]]]]; injection I as <- _ _; exact Ip. }
  assert (M : forall a b, v = a ++ f_word f ++ b -> char_in "%" a = false /\ char_in "%" b = false).
  { intros a b E. rewrite E, !char_in_app in Q. apply orb_false_iff in Q as [Q1 Q2]. apply orb_false_iff in Q2 as [_ Q2]. auto. }
  destruct d; cbn [search] in S.
  - apply match_word_spec in S as (r & W & _ & S); [|exact P]. pose proof (pattern_std patt _ Ip W) as St.
    destruct spaced; destruct S as [Em E].
    + exists [], (" "%char :: r). cbn [app]. split; [exact E|]. split; [split; [left; reflexivity|right; eauto]|]. split; [exact St|].
      unfold format_of. rewrite Em. cbn [app]. rewrite last_of_end.
      replace v with ((f_word f ++ [" "%char]) ++ r) by (rewrite <- app_assoc; symmetry; exact E).
      rewrite replace_first_head. destruct (M [] (" "%char :: r) E) as [_ M2].
      exact (second_replace [] (" "%char :: r) eq_refl M2).
    + exfalso. rewrite E, find_whole_std in N by exact St. discriminate.
  - apply search_spaced_spec in S as (a & r & W & S); [|exact P]. pose proof (pattern_std patt _ Ip W) as St.
    destruct spaced; destruct S as [Em E].
    + assert (C : contains (f_match f) v = true). { apply contains_iff. exists a, r. rewrite Em, E. cbn. rewrite <- app_assoc. reflexivity. }
      destruct (replace_first_spec (f_match f) (firstn 1 (f_match f) ++ S_ "%s" ++ last_of (f_match f)) v C) as (a0 & b0 & E0 & R).
      rewrite Em in E0. assert (E1 : v = (a0 ++ [" "%char]) ++ f_word f ++ " "%char :: b0).
      { rewrite E0. cbn. rewrite <- !app_assoc. reflexivity. }
      exists (a0 ++ [" "%char]), (" "%char :: b0). split; [exact E1|]. split; [split; right; eauto|]. split; [exact St|].
      unfold format_of. rewrite <- app_assoc, R, Em.
      change (" "%char :: f_word f ++ [" "%char]) with ((" "%char :: f_word f) ++ [" "%char]). rewrite last_of_end.
      destruct (M _ _ E1) as [M1 M2]. rewrite <- (second_replace (a0 ++ [" "%char]) (" "%char :: b0) M1 M2). cbn. rewrite <- !app_assoc. reflexivity.
    + assert (C : contains (f_match f) v = true). { apply contains_iff. exists a, []. rewrite Em, E, app_nil_r. reflexivity. }
      destruct (replace_first_spec (f_match f) (firstn 1 (f_match f) ++ S_ "%s") v C) as (a0 & b0 & E0 & R).
      rewrite Em in E0. assert (E1 : v = (a0 ++ [" "%char]) ++ f_word f ++ b0).
      { rewrite E0. cbn. rewrite <- !app_assoc. reflexivity. }
      exists (a0 ++ [" "%char]), b0. split; [exact E1|]. split; [split; [right; eauto|]|].
      * destruct b0 as [|c b0]; [left; reflexivity|right]. destruct (Ascii.eqb c " ") eqn:X; [apply Ascii.eqb_eq in X; subst c; eauto|exfalso].
        destruct (span non_space (c :: b0)) as [x y] eqn:Sp. apply span_parts in Sp as (Sp & Nx & Ny).
        destruct x as [|x0 x].
        { cbn [app] in Sp. subst y. assert (c = " "%char); [|apply Ascii.eqb_neq in X; congruence].
          apply P; [|exact Ny]. rewrite E1. apply in_or_app. right. apply in_or_app. right. now left. }
        cbn [app] in Sp. injection Sp as <- Sp.
        apply (L a (f_word f) c x E (std_lacks " " _ eq_refl St)).
        rewrite E0. cbn [app]. rewrite words_mid. apply in_or_app. right. rewrite Sp.
        change (f_word f ++ c :: x ++ y) with (f_word f ++ (c :: x) ++ y). rewrite app_assoc.
        assert (Z : char_in " " (f_word f ++ c :: x) = false).
        { rewrite char_in_app, (std_lacks " " _ eq_refl St). cbn [orb]. clear - Nx. unfold char_in.
          induction (c :: x) as [|k l IH]; [reflexivity|]. cbn [forallb] in Nx. apply andb_true_iff in Nx as [N1 N2]. cbn [existsb].
          rewrite IH by exact N2. destruct (Ascii.eqb " " k) eqn:K; [|reflexivity]. apply Ascii.eqb_eq in K. subst k. discriminate. }
        assert (Zn : f_word f ++ c :: x <> []) by (intro H; apply app_eq_nil in H as [_ H]; discriminate).
        destruct y as [|y0 y]; [rewrite app_nil_r, words_single by assumption; now left|].
        assert (y0 = " "%char). { apply P; [|exact Ny]. rewrite E1. apply in_or_app. right. apply in_or_app. right. right. rewrite Sp. apply in_or_app. right. now left. }
        subst y0. rewrite words_mid, words_single by assumption. now left.
      * split; [exact St|]. unfold format_of. rewrite R, Em. destruct (M _ _ E1) as [M1 M2].
        rewrite <- (second_replace (a0 ++ [" "%char]) b0 M1 M2). cbn. rewrite <- !app_assoc. reflexivity.
Qed.

Lemma lacks_sub c a b : char_in c (a ++ b) = false -> char_in c a = false /\ char_in c b = false.
Proof. rewrite char_in_app. apply orb_false_iff. Qed.
Lemma tighten_cases b : tighten b = b \/ exists t, b = " "%char :: " "%char :: t /\ tighten b = " "%char :: t.
Proof.
  destruct b as [|c b]; [left; reflexivity|].
  destruct (Ascii.eqb c " ") eqn:C.
  - apply Ascii.eqb_eq in C. subst c. destruct b as [|d b]; [left; reflexivity|].
    destruct (Ascii.eqb d " ") eqn:D; [apply Ascii.eqb_eq in D; subst d; right; eauto|].
    left. apply Ascii.eqb_neq in D. destruct d as [[] [] [] [] [] [] [] []]; try reflexivity. congruence.
  - left. apply Ascii.eqb_neq in C. destruct c as [[] [] [] [] [] [] [] []]; try reflexivity. congruence.
Qed.

(** ** Reading *)
Lemma no_params n d i key e : text_param (d_value d) = None ->
  In key [S_ "t"; S_ "ed"; S_ "paren"; S_ "brack"; S_ "curly"; S_ "angle"] ->
  layout_param (sets_of (layout_of (S_ "DY") n (getDynamicParameters d i))) (S_ "DY") key e [] = [].
Proof.
  intros T I. assert (G : match text_param (d_value d) with Some t => char_in ":" t = false | None => True end) by (rewrite T; exact Logic.I).
  cbn in I. repeat (destruct I as [<-|I]; [rewrite dynamic_param; [rewrite T; reflexivity|reflexivity..|exact G]|]). destruct I.
Qed.

Lemma round_standard n i d : standard (d_value d) -> round_value n i d = Some (d_value d).
Proof.
  intro W. assert (G : getDynamicString (d_value d) = d_value d). { unfold getDynamicString. rewrite find_whole_std by exact W. reflexivity. }
  assert (T : text_param (d_value d) = None). { unfold text_param. rewrite G, str_eqb_refl. reflexivity. }
  rewrite round_value_eq; [|rewrite G; exact W|rewrite T; exact I]. rewrite G. f_equal. unfold dynamic_text.
  rewrite no_params by (cbn; auto). cbn [is_nil]. apply in_brackets_none. intros key e K. apply no_params; [exact T|]. right. exact K.
Qed.

Definition bracket_pairs : list (str * str) :=
  [(S_ "[ ", S_ " ]"); (S_ "( ", S_ " )"); (S_ "{ ", S_ " }"); (S_ "< ", S_ " >")].

Lemma find_whole_bracketed o c w : In (o, c) bracket_pairs -> find_whole (o ++ w ++ c) = None.
Proof.
  intro I. unfold find_whole, dynamicPatterns. cbn in I.
  destruct I as [I|[I|[I|[I|[]]]]]; injection I as <- <-; reflexivity.
Qed.
Lemma match_bracketed_own patt o c w : In (o, c) bracket_pairs -> standard w ->
  match_bracketed patt o c (o ++ w ++ c) = if patt w then Some w else None.
Proof.
  intros I W. unfold match_bracketed.
  assert (S : starts_with o (o ++ w ++ c) = true) by (apply starts_iff; eauto). rewrite S.
  rewrite skipn_app, skipn_all, Nat.sub_diag. cbn [app skipn].
  rewrite span_word; [|exact W|cbn in I; destruct I as [I|[I|[I|[I|[]]]]]; injection I as <- <-; right; eexists; reflexivity].
  assert (S2 : starts_with c c = true) by (apply starts_iff; exists []; rewrite app_nil_r; reflexivity).
  rewrite S2, skipn_all. destruct (patt w); reflexivity.
Qed.
Lemma find_bracketed_own name o c w : In (name, o, c) dynamicBrackets -> standard w ->
  find_bracketed (o ++ w ++ c) = Some (name, w).
Proof.
  intros I W. unfold find_bracketed. pose proof (std_pattern w W) as P. revert P. generalize dynamicPatterns as ps.
  assert (O : In (o, c) bracket_pairs).
  { cbn in *. destruct I as [I|[I|[I|[I|[]]]]]; injection I as _ <- <-; auto 10. }
  assert (K : forall patt, first_some (fun '(name, start, stop) =>
                  match match_bracketed patt start stop (o ++ w ++ c) with Some w => Some (name, w) | None => None end) dynamicBrackets
              = if patt w then Some (name, w) else None).
  { intro patt. pose proof (match_bracketed_own patt o c w O W) as M. unfold dynamicBrackets. cbn [first_some].
    destruct I as [I|[I|[I|[I|[]]]]]; injection I as E1 E2 E3.
    - assert (name = S_ "brack") as -> by (symmetry; exact E1). assert (o = S_ "[ ") as -> by (symmetry; exact E2).
      assert (c = S_ " ]") as -> by (symmetry; exact E3). rewrite M. destruct (patt w); reflexivity.
    - assert (name = S_ "paren") as -> by (symmetry; exact E1). assert (o = S_ "( ") as -> by (symmetry; exact E2).
      assert (c = S_ " )") as -> by (symmetry; exact E3). rewrite M. destruct (patt w); reflexivity.
    - assert (name = S_ "curly") as -> by (symmetry; exact E1). assert (o = S_ "{ ") as -> by (symmetry; exact E2).
      assert (c = S_ " }") as -> by (symmetry; exact E3). rewrite M. destruct (patt w); reflexivity.
    - assert (name = S_ "angle") as -> by (symmetry; exact E1). assert (o = S_ "< ") as -> by (symmetry; exact E2).
      assert (c = S_ " >") as -> by (symmetry; exact E3). rewrite M. destruct (patt w); reflexivity. }
  induction ps as [|p ps IH]; [discriminate|]. intro P. cbn [first_some]. rewrite K. cbn [existsb] in P.
  destruct (p w); [reflexivity|]. apply IH, P.
Qed.

Lemma ed_param name : name_value (S_ "ed=" ++ name) = (S_ "ed", name).
Proof. reflexivity. Qed.
Lemma t_param fmt : name_value (S_ "t=" ++ fmt) = (S_ "t", fmt).
Proof. reflexivity. Qed.

Lemma round_bracketed n i d o c w : In (o, c) bracket_pairs -> standard w -> d_value d = o ++ w ++ c ->
  round_value n i d = Some (d_value d).
Proof.
  intros O W E.
  assert (B : exists name, In (name, o, c) dynamicBrackets).
  { cbn in O. destruct O as [O|[O|[O|[O|[]]]]]; injection O as <- <-; eexists; cbn; auto 10. }
  destruct B as (name & B).
  assert (G : getDynamicString (d_value d) = w).
  { unfold getDynamicString. rewrite E, (find_whole_bracketed o c w O), (find_bracketed_own name o c w B W). reflexivity. }
  assert (T : text_param (d_value d) = Some (S_ "ed=" ++ name)).
  { unfold text_param. rewrite G. assert (Nq : str_eqb w (d_value d) = false).
    { apply str_eqb_neq. intro H. apply (f_equal (@length ascii)) in H. rewrite E, !app_length in H.
      cbn in O. destruct O as [O|[O|[O|[O|[]]]]]; injection O as <- <-; cbn in H; lia. }
    rewrite Nq, E, (find_bracketed_own name o c w B W). reflexivity. }
  assert (C : match text_param (d_value d) with Some t => char_in ":" t = false | None => True end).
  { rewrite T. cbn in B. destruct B as [B|[B|[B|[B|[]]]]]; injection B as <- _ _; reflexivity. }
  rewrite round_value_eq; [|rewrite G; exact W|exact C]. rewrite G. f_equal. unfold dynamic_text, in_brackets.
  rewrite !dynamic_param by first [reflexivity|exact C].
  rewrite T, ed_param. rewrite E. cbn in B.
  destruct B as [B|[B|[B|[B|[]]]]]; injection B as <- <- <-; reflexivity.
Qed.

(** A dynamic with other words. *)
Lemma round_text n i d : let v := d_value d in
  plain v -> char_in "%" v = false -> char_in ":" v = false -> last_unextended v ->
  find_whole v = None -> find_bracketed v = None -> (exists w, In w (words v) /\ standard w) ->
  exists a w b, v = a ++ w ++ b /\ bounded a b /\ standard w /\
    round_value n i d = Some (strip (a ++ w ++ " "%char :: tighten b)).
Proof.
  intros v P Q C L N B (x & X & Sx).
  destruct (find_dynamic v) as [[[dl spaced] f]|] eqn:F; [|exfalso; exact (find_dynamic_some v x X Sx N F)].
  destruct (found_format v dl spaced f P Q L N F) as (a & b & E & Bd & St & Fm).
  exists a, (f_word f), b. split; [exact E|]. split; [exact Bd|]. split; [exact St|].
  assert (G : getDynamicString v = f_word f) by (unfold getDynamicString; rewrite N, B, F; reflexivity).
  assert (T : text_param v = Some (S_ "t=" ++ format_of dl spaced f v)).
  { unfold text_param. rewrite G. assert (Nq : str_eqb (f_word f) v = false).
    { apply str_eqb_neq. intro H. rewrite <- H, find_whole_std in N by exact St. discriminate. }
    rewrite Nq, B, F. reflexivity. }
  assert (Lc : char_in ":" (format_of dl spaced f v) = false).
  { rewrite Fm, !char_in_app. rewrite E in C. apply lacks_sub in C as [C1 C2]. apply lacks_sub in C2 as [_ C2].
    rewrite C1. destruct (tighten_cases b) as [->|(t & Eb & ->)]; [rewrite C2; reflexivity|].
    rewrite Eb in C2. rewrite !char_in_cons in *. rewrite !orb_false_iff in C2. destruct C2 as (_ & _ & C2). rewrite C2. reflexivity. }
  assert (Cc : match text_param v with Some t => char_in ":" t = false | None => True end).
  { rewrite T, char_in_app, Lc. reflexivity. }
  subst v. rewrite round_value_eq; [|rewrite G; exact St|exact Cc]. rewrite G. f_equal. unfold dynamic_text.
  rewrite dynamic_param by first [reflexivity|exact Cc]. rewrite T, t_param.
  change (param (S_ "t") [(S_ "t", format_of dl spaced f (d_value d))]) with (Some (format_of dl spaced f (d_value d))).
  cbv iota. rewrite Fm.
  assert (Ne : forall z : str, match z with [] => [] | _ => z end = z) by (intros []; reflexivity).
  assert (Nn : is_nil (a ++ S_ "%s" ++ tighten b) = false) by (destruct a; reflexivity).
  change (match a ++ S_ "%s" ++ tighten b with [] => [] | a0 :: l => a0 :: l end) with (match a ++ S_ "%s" ++ tighten b with [] => [] | _ => a ++ S_ "%s" ++ tighten b end) in *.
  rewrite Ne, Nn. rewrite in_brackets_none.
  - rewrite E in Q. apply lacks_sub in Q as [Q1 Q2]. apply lacks_sub in Q2 as [_ Q2].
    rewrite replace_percent; [rewrite <- app_assoc; reflexivity|exact Q1|].
    destruct (tighten_cases b) as [->|(t & Eb & ->)]; [exact Q2|]. rewrite Eb in Q2. rewrite char_in_cons in Q2. apply orb_false_iff in Q2 as [_ Q2]. exact Q2.
  - intros key e K. cbn in K. repeat (destruct K as [<-|K]; [rewrite dynamic_param by first [reflexivity|exact Cc]; rewrite T, t_param; reflexivity|]). destruct K.
Qed.

(** ** C138 *)

(** A dynamic is read with the value it was written with: for the dynamics
    themselves and for those in brackets, wherever they stand. *)
Theorem C138_dynamics_partial : forall n i d,
  (standard (d_value d) \/ exists o c w, In (o, c) bracket_pairs /\ standard w /\ d_value d = o ++ w ++ c) ->
  round_value n i d = Some (d_value d).
Proof.
  intros n i d [W|(o & c & w & O & W & E)].
  - apply round_standard, W.
  - exact (round_bracketed n i d o c w O W E).
Qed.
Print Assumptions C138_dynamics_partial.

(** Other words with a dynamic are kept: the words read are the words written. *)
Theorem C138_words_partial : forall n i d w,
  plain (d_value d) -> char_in "%" (d_value d) = false -> char_in ":" (d_value d) = false ->
  last_unextended (d_value d) -> In w (words (d_value d)) -> standard w ->
  exists v, round_value n i d = Some v /\ words v = words (d_value d).
Proof.
  intros n i d w P Q C L I W.
  destruct (find_whole (d_value d)) as [x|] eqn:N.
  { apply find_whole_plain in N as [E S]; [|exact P]. subst x. exists (d_value d). split; [apply round_standard, S|reflexivity]. }
  destruct (find_bracketed (d_value d)) as [[name x]|] eqn:B.
  { unfold find_bracketed in B. apply first_some_in in B as (patt & Ip & B). apply first_some_in in B as (((nm, o), c) & Ib & B).
    destruct (match_bracketed patt o c (d_value d)) as [y|] eqn:M; [|discriminate]. injection B as -> ->.
    apply match_bracketed_spec in M as [E M]; [|exact P]. exists (d_value d). split; [|reflexivity].
    apply (round_bracketed n i d o c x); [|exact (pattern_std patt x Ip M)|exact E].
    destruct Ib as [Ib|[Ib|[Ib|[Ib|[]]]]]; injection Ib as _ <- <-; cbn; auto 10. }
  destruct (round_text n i d P Q C L N B (ex_intro _ w (conj I W))) as (a & x & b & E & Bd & Sx & R).
  exists (strip (a ++ x ++ " "%char :: tighten b)). split; [exact R|].
  assert (Pt : plain (a ++ x ++ " "%char :: tighten b)).
  { rewrite E in P. apply plain_app in P as [P1 P2]. apply plain_app in P2 as [P2 P3].
    apply plain_app. split; [exact P1|]. apply plain_app. split; [exact P2|]. intros z [<-|Z] Hz; [reflexivity|].
    destruct (tighten_cases b) as [T|(t & Eb & T)]; rewrite T in Z; [exact (P3 z Z Hz)|].
    apply P3; [|exact Hz]. rewrite Eb. right. exact Z. }
  rewrite words_strip by exact Pt. rewrite (words_place a x (" "%char :: tighten b)); [|split; [exact (proj1 Bd)|right; eauto]|exact Sx].
  rewrite E, words_place by assumption. rewrite words_blank. do 2 f_equal.
  destruct (tighten_cases b) as [->|(t & -> & ->)]; [reflexivity|]. rewrite !words_blank. reflexivity.
Qed.
Print Assumptions C138_words_partial.

(** And nothing changes when every dynamic that other words follow has two
    spaces after it, as the reader leaves it. *)
Theorem C138_spaces_partial : forall n i d w,
  plain (d_value d) -> char_in "%" (d_value d) = false -> char_in ":" (d_value d) = false ->
  last_unextended (d_value d) -> In w (words (d_value d)) -> standard w -> strip (d_value d) = d_value d ->
  (forall a x b, d_value d = a ++ x ++ b -> bounded a b -> standard x -> b = [] \/ exists t, b = S_ "  " ++ t) ->
  round_value n i d = Some (d_value d).
Proof.
  intros n i d w P Q C L I W T H.
  destruct (find_whole (d_value d)) as [x|] eqn:N.
  { apply find_whole_plain in N as [E S]; [|exact P]. subst x. apply round_standard, S. }
  destruct (find_bracketed (d_value d)) as [[name x]|] eqn:B.
  { unfold find_bracketed in B. apply first_some_in in B as (patt & Ip & B). apply first_some_in in B as (((nm, o), c) & Ib & B).
    destruct (match_bracketed patt o c (d_value d)) as [y|] eqn:M; [|discriminate]. injection B as -> ->.
    apply match_bracketed_spec in M as [E M]; [|exact P].
    apply (round_bracketed n i d o c x); [|exact (pattern_std patt x Ip M)|exact E].
    destruct Ib as [Ib|[Ib|[Ib|[Ib|[]]]]]; injection Ib as _ <- <-; cbn; auto 10. }
  destruct (round_text n i d P Q C L N B (ex_intro _ w (conj I W))) as (a & x & b & E & Bd & Sx & R).
  rewrite R. f_equal. destruct (H a x b E Bd Sx) as [->|(t & ->)].
  - rewrite app_nil_r in E. cbn [tighten]. replace (a ++ x ++ [" "%char]) with ([] ++ (a ++ x) ++ [" "%char]) by (cbn [app]; rewrite app_assoc; reflexivity).
    rewrite <- E. apply strip_padded; [reflexivity|reflexivity|exact T].
  - change (" "%char :: tighten (S_ "  " ++ t)) with (S_ "  " ++ t). rewrite <- E. exact T.
Qed.
Print Assumptions C138_spaces_partial.

Example C138_nonvacuous :
  let d := mkDynamic (S_ "sempre pp  e legato") (Some Above) (Some JRight) in
  plain (d_value d) /\ In (S_ "pp") (words (d_value d)) /\ standard (S_ "pp") /\ last_unextended (d_value d)
  /\ round_value (Some 2) 1 d = Some (d_value d)
  /\ round_value None 0 (mkDynamic (S_ "dolce e p espressivo") None None) = Some (S_ "dolce e p  espressivo")
  /\ round_value None 0 (mkDynamic (S_ "( sffz )") (Some Below) None) = Some (S_ "( sffz )").
Proof.
  assert (A : plain (S_ "sempre pp  e legato")).
  { intros c I. cbn in I. repeat (destruct I as [<-|I]; [cbn; first [discriminate|reflexivity]|]). destruct I. }
  assert (B : last_unextended (S_ "sempre pp  e legato")).
  { intros a l x y E N H. change (words (S_ "sempre pp  e legato")) with [S_ "sempre"; S_ "pp"; S_ "e"; S_ "legato"] in H.
    assert (X : l = S_ "legato").
    { pose proof (f_equal words E) as W. apply (f_equal (fun s => last (split_char " " s) [])) in E.
      rewrite split_char_mid, (split_char_no_sep " " l N), last_last in E. symmetry. exact E. }
    subst l. destruct H as [H|[H|[H|[H|[]]]]]; discriminate. }
  split; [exact A|]. split; [cbn; auto|]. split; [exact (std_piano 1)|]. split; [exact B|].
  split; [vm_compute; reflexivity|]. split; vm_compute; reflexivity.
Qed.

(** Other values are not kept: a dynamic that is followed by one space gets two;
    a text that goes on after its dynamic is put elsewhere; what stands after a
    colon is lost; a text without such a dynamic is not read at all. *)
Theorem C138_texts_refuted :
  (exists v v', round_value None 0 (mkDynamic v None None) = Some v' /\ v' <> v /\ v = S_ "p dolce" /\ v' = S_ "p  dolce") /\
  (exists v v', round_value None 0 (mkDynamic v None None) = Some v' /\ v = S_ "sempre piano p" /\ v' = S_ "sempre p iano p") /\
  (exists v v', round_value None 0 (mkDynamic v None None) = Some v' /\ v = S_ "p dolce: legato" /\ v' = S_ "p  dolce") /\
  (exists v, round_value None 0 (mkDynamic v None None) = None /\ v = S_ "dolce").
Proof.
  split; [|split; [|split]].
  - exists (S_ "p dolce"), (S_ "p  dolce"). split; [vm_compute; reflexivity|]. split; [discriminate|]. split; reflexivity.
  - exists (S_ "sempre piano p"), (S_ "sempre p iano p"). split; [vm_compute; reflexivity|]. split; reflexivity.
  - exists (S_ "p dolce: legato"), (S_ "p  dolce"). split; [vm_compute; reflexivity|]. split; reflexivity.
  - exists (S_ "dolce"). split; [vm_compute; reflexivity|reflexivity].
Qed.
Print Assumptions C138_texts_refuted.

(** Two dynamics of a part at the same moment become another one, or none. *)
Theorem C138_together_refuted :
  exists ps qs : list piece, ps = [Dyn (S_ "f"); Dyn (S_ "p")] /\ qs = [Dyn (S_ "p"); Dyn (S_ "f")] /\
    read_dynamics 0 [dynam_token ps] = [(0, S_ "fp")] /\ read_dynamics 0 [dynam_token qs] = [].
Proof. eexists _, _. split; [reflexivity|]. split; [reflexivity|]. split; vm_compute; reflexivity. Qed.
Print Assumptions C138_together_refuted.

(** A dynamic sf or sfz that is written with its note is read as such, without
    the words or the brackets it had. *)
Theorem C138_on_notes_refuted :
  (forall v, getDynamicString v = S_ "sf" -> read_signifier (note_signifier v) = Some (S_ "sf")) /\
  (forall v, getDynamicString v = S_ "sfz" -> read_signifier (note_signifier v) = Some (S_ "sfz")) /\
  exists v v', getDynamicString v = S_ "sf" /\ getDynamicString v' = S_ "sfz" /\ v = S_ "[ sf ]" /\ v' = S_ "sfz ma dolce" /\
    round_value None 0 (mkDynamic v None None) = Some v /\ read_signifier (note_signifier v) <> Some v /\ read_signifier (note_signifier v') <> Some v'.
Proof.
  split; [|split].
  - intros v H. unfold note_signifier. rewrite H. reflexivity.
  - intros v H. unfold note_signifier. rewrite H. reflexivity.
  - exists (S_ "[ sf ]"), (S_ "sfz ma dolce"). split; [vm_compute; reflexivity|]. split; [vm_compute; reflexivity|].
    split; [reflexivity|]. split; [reflexivity|]. split; [vm_compute; reflexivity|]. split; vm_compute; discriminate.
Qed.
Print Assumptions C138_on_notes_refuted.
