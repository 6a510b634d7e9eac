(** Lemmas about tempo texts. *)
From Coq Require Import Lia QArith Qround ZArith.
From Verif Require Import PyStr PyStrProofs TempoModel.
Local Close Scope Q_scope.

(** ** Stripping *)
Fixpoint drop_by (p : N -> bool) (s : text) : text :=
  match s with c :: s' => if p c then drop_by p s' else s | [] => [] end.
Definition strip_by (p : N -> bool) (s : text) : text := rev (drop_by p (rev (drop_by p s))).
Lemma skip_spaces_by s : skip_spaces s = drop_by space s.
Proof. induction s as [|c s IH]; [reflexivity|]. cbn. destruct (space c); [exact IH|reflexivity]. Qed.
Lemma strip_text_by s : strip_text s = strip_by space s.
Proof. unfold strip_text, strip_by. rewrite !skip_spaces_by. reflexivity. Qed.

Lemma drop_in p s c : In c (drop_by p s) -> In c s.
Proof. induction s as [|x s IH]; [tauto|]. cbn [drop_by]. destruct (p x); [intro H; right; auto|auto]. Qed.
Lemma strip_in p s c : In c (strip_by p s) -> In c s.
Proof. unfold strip_by. intro H. apply in_rev in H. apply drop_in in H. apply in_rev in H. exact (drop_in _ _ _ H). Qed.
Lemma drop_drop p q s : (forall c, In c s -> p c = true -> q c = true) -> drop_by q (drop_by p s) = drop_by q s.
Proof.
  induction s as [|c s IH]; intro H; [reflexivity|]. cbn [drop_by]. destruct (p c) eqn:P; [|reflexivity].
  rewrite (H c (or_introl eq_refl) P). apply IH. intros x I. apply H. now right.
Qed.
Lemma drop_app_some p a b : forallb p a = false -> drop_by p (a ++ b) = drop_by p a ++ b.
Proof. induction a as [|c a IH]; [discriminate|]. cbn [forallb app drop_by]. destruct (p c); [exact IH|reflexivity]. Qed.
Lemma drop_app_all p a b : forallb p a = true -> drop_by p (a ++ b) = drop_by p b.
Proof. induction a as [|c a IH]; [reflexivity|]. cbn [forallb app drop_by]. destruct (p c); [exact IH|discriminate]. Qed.
Lemma drop_all p a : forallb p a = true -> drop_by p a = [].
Proof. intro H. rewrite <- (app_nil_r a), drop_app_all by exact H. reflexivity. Qed.
Lemma forallb_rev {A} (p : A -> bool) l : forallb p (rev l) = forallb p l.
Proof. induction l as [|x l IH]; [reflexivity|]. cbn. rewrite forallb_app, IH. cbn. rewrite andb_true_r. apply andb_comm. Qed.
(** Stripping less before makes no difference. *)
Lemma drop_split p s : exists a, s = a ++ drop_by p s /\ forallb p a = true.
Proof.
  induction s as [|c s IH]; [exists []; auto|]. cbn [drop_by]. destruct (p c) eqn:P.
  - destruct IH as (a & E & H). exists (c :: a). split; [cbn; rewrite <- E; reflexivity|]. cbn. rewrite P. exact H.
  - exists []. auto.
Qed.
Lemma strip_strip p q s : (forall c, In c s -> p c = true -> q c = true) -> strip_by q (strip_by p s) = strip_by q s.
Proof.
  intro H. unfold strip_by.
  assert (Weak : forall l, (forall c, In c l -> In c s) -> forallb p l = true -> forallb q l = true).
  { intros l L P. apply forallb_forall. intros c I. apply H; [auto|]. exact (proj1 (forallb_forall p l) P c I). }
  destruct (drop_split p s) as (a & Ea & Pa). set (t := drop_by p s) in *.
  destruct (drop_split p (rev t)) as (b & Eb & Pb). set (u := drop_by p (rev t)) in *.
  assert (Et : t = rev u ++ rev b) by (rewrite <- (rev_involutive t), Eb, rev_app_distr; reflexivity).
  assert (Qa : forallb q a = true) by (apply Weak; [intros c I; rewrite Ea; apply in_or_app; now left|exact Pa]).
  assert (Qb : forallb q (rev b) = true).
  { rewrite forallb_rev. apply Weak; [|exact Pb]. intros c I. rewrite Ea. apply in_or_app. right. rewrite Et. apply in_or_app. right. apply in_rev in I. exact I. }
  rewrite Ea, drop_app_all by exact Qa. rewrite Et.
  destruct (forallb q (rev u)) eqn:F.
  - rewrite (drop_all q (rev u) F), drop_app_all by exact F. rewrite (drop_all q (rev b) Qb). reflexivity.
  - rewrite drop_app_some by exact F. rewrite !rev_app_distr, rev_involutive, drop_app_all; [reflexivity|]. rewrite forallb_rev in Qb. exact Qb.
Qed.

(** Stripping and escaping one after the other. *)
Lemma drop_flat p q (e : N -> text) s :
  (forall c, In c s -> (p c = true -> forallb q (e c) = true) /\ (p c = false -> exists x m, e c = x :: m /\ q x = false)) ->
  drop_by q (flat_map e s) = flat_map e (drop_by p s).
Proof.
  induction s as [|c s IH]; intro H; [reflexivity|]. cbn [flat_map drop_by].
  destruct (H c (or_introl eq_refl)) as [A B]. destruct (p c) eqn:P.
  - rewrite drop_app_all by (apply A; reflexivity). apply IH. intros x I. apply H. now right.
  - destruct (B eq_refl) as (x & m & E & Q). cbn [flat_map]. rewrite E. cbn. rewrite Q. reflexivity.
Qed.
Lemma rev_flat (e : N -> text) s : rev (flat_map e s) = flat_map (fun c => rev (e c)) (rev s).
Proof.
  induction s as [|c s IH]; [reflexivity|]. cbn [flat_map rev]. rewrite rev_app_distr, IH, flat_map_app. cbn. rewrite app_nil_r. reflexivity.
Qed.
Lemma strip_flat p q (e : N -> text) s :
  (forall c, In c s -> (p c = true -> forallb q (e c) = true) /\
     (p c = false -> (exists x m, e c = x :: m /\ q x = false) /\ (exists x m, e c = m ++ [x] /\ q x = false))) ->
  strip_by q (flat_map e s) = flat_map e (strip_by p s).
Proof.
  intro H. unfold strip_by. rewrite (drop_flat p q e s).
  2:{ intros c I. destruct (H c I) as [A B]. split; [exact A|]. intro P. exact (proj1 (B P)). }
  rewrite rev_flat, (drop_flat p q (fun c => rev (e c))).
  - rewrite rev_flat. generalize (rev (drop_by p (rev (drop_by p s)))). intro u. clear. induction u as [|c l IH]; [reflexivity|]. cbn [flat_map].
    rewrite rev_involutive, IH. reflexivity.
  - intros c I. apply in_rev in I. apply drop_in in I. destruct (H c I) as [A B]. split.
    + intro P. rewrite forallb_rev. apply A, P.
    + intro P. destruct (B P) as [_ (x & m & E & Q)]. exists x, (rev m). rewrite E, rev_app_distr. auto.
Qed.

(** ** Escaping *)
Definition detab (c : N) : N := if existsb (N.eqb c) [9; 13; 11; 12]%N then 32%N else c.
Definition esc (c : N) : text :=
  if N.eqb c nbsp then U "&nbsp;" else if N.eqb c (ch ":") then U "&colon;" else if N.eqb c nl then U "\n" else [c].
Lemma clean_esc c : clean_char c = esc (detab c).
Proof.
  unfold clean_char, detab, esc. destruct (existsb (N.eqb c) [9; 13; 11; 12]%N) eqn:E.
  - apply existsb_exists in E as (x & I & E). apply N.eqb_eq in E. subst x. cbn in I.
    destruct I as [<-|[<-|[<-|[<-|[]]]]]; reflexivity.
  - reflexivity.
Qed.
Definition outer_space (c : N) : bool := space c && negb (N.eqb c nl) && negb (N.eqb c nbsp).
Lemma clean_eq s : clean s = flat_map esc (strip_by outer_space (map detab s)).
Proof.
  unfold clean. assert (E : flat_map clean_char s = flat_map esc (map detab s)).
  { induction s as [|c s IH]; [reflexivity|]. cbn. rewrite clean_esc, IH. reflexivity. }
  rewrite E, strip_text_by. apply strip_flat. intros c _. unfold outer_space, esc. split.
  - intro H. apply andb_prop in H as [H Nb]. apply andb_prop in H as [H Nn]. apply negb_true_iff in Nb, Nn. rewrite Nb, Nn.
    destruct (N.eqb_spec c (ch ":")) as [->|]; [discriminate|]. cbn. rewrite H. reflexivity.
  - intro H. destruct (N.eqb_spec c nbsp) as [_|Nb].
    { split; [exists 38%N, (U "nbsp;"); split; reflexivity|exists 59%N, (U "&nbsp"); split; reflexivity]. }
    destruct (N.eqb_spec c (ch ":")) as [_|Nc].
    { split; [exists 38%N, (U "colon;"); split; reflexivity|exists 59%N, (U "&colon"); split; reflexivity]. }
    destruct (N.eqb_spec c nl) as [_|Nn].
    { split; [exists 92%N, (U "n"); split; reflexivity|exists 110%N, (U "\"); split; reflexivity]. }
    cbn [negb] in H. rewrite !andb_true_r in H. split; [exists c, []; auto|exists c, []; auto].
Qed.

(** Characters that are not changed. *)
Definition quiet (c : N) : Prop := c <> ch "&" /\ c <> ch "\".
Lemma unescape_one c s : c <> ch "&" -> unescape_from 0 (c :: s) = c :: unescape_from 0 s.
Proof.
  intro H. cbn [unescape_from]. change (is_prefix (U "&nbsp;") (c :: s)) with (N.eqb (ch "&") c && is_prefix (U "nbsp;") s).
  change (is_prefix (U "&colon;") (c :: s)) with (N.eqb (ch "&") c && is_prefix (U "colon;") s).
  rewrite (proj2 (N.eqb_neq _ _)) by congruence. reflexivity.
Qed.
Definition esc2 (c : N) : text := if N.eqb c nl then U "\n" else [c].
Lemma unescape_esc s : Forall quiet s -> unescape (flat_map esc s) = flat_map esc2 s.
Proof.
  unfold unescape. induction s as [|c s IH]; intro H; [reflexivity|]. apply Forall_cons_iff in H as [[A B] H]. cbn [flat_map]. rewrite <- IH by exact H.
  unfold esc, esc2. destruct (N.eqb_spec c nbsp) as [->|Nb]; [reflexivity|]. destruct (N.eqb_spec c (ch ":")) as [->|Nc]; [reflexivity|].
  destruct (N.eqb_spec c nl) as [->|Nn]; [reflexivity|]. cbn [app]. apply unescape_one, A.
Qed.
Lemma newlines_one c s : c <> ch "\" -> newlines_from 0 (c :: s) = c :: newlines_from 0 s.
Proof.
  intro H. cbn [newlines_from]. change (is_prefix (U "\n") (c :: s)) with (N.eqb (ch "\") c && is_prefix (U "n") s).
  rewrite (proj2 (N.eqb_neq _ _)) by congruence. reflexivity.
Qed.
Lemma newlines_esc2 s : Forall quiet s -> newlines (flat_map esc2 s) = s.
Proof.
  unfold newlines. induction s as [|c s IH]; intro H; [reflexivity|]. apply Forall_cons_iff in H as [[A B] H]. cbn [flat_map].
  unfold esc2 at 1. destruct (N.eqb_spec c nl) as [->|Nn].
  - change (U "\n" ++ flat_map esc2 s) with (ch "\" :: ch "n" :: flat_map esc2 s). 
    change (newlines_from 0 (ch "\" :: ch "n" :: flat_map esc2 s)) with (nl :: newlines_from 0 (flat_map esc2 s)). rewrite IH by exact H. reflexivity.
  - cbn [app]. rewrite newlines_one by exact B. rewrite IH by exact H. reflexivity.
Qed.
Lemma unescape_quiet s : Forall quiet s -> unescape s = s.
Proof. unfold unescape. induction s as [|c s IH]; intro H; [reflexivity|]. apply Forall_cons_iff in H as [[A B] H]. rewrite unescape_one by exact A. rewrite IH by exact H. reflexivity. Qed.
Lemma newlines_quiet s : Forall quiet s -> newlines s = s.
Proof. unfold newlines. induction s as [|c s IH]; intro H; [reflexivity|]. apply Forall_cons_iff in H as [[A B] H]. rewrite newlines_one by exact B. rewrite IH by exact H. reflexivity. Qed.

(** The mark made of a text without entities. *)
Definition mark_of (s : text) (bpm : N) : option mark :=
  match getMetronomeMarkInfo s with
  | None => match nonempty (strip_text s), positive bpm with None, None => None | t, n => Some (mkMark t n None) end
  | Some (_, _, name, num) => Some (mkMark (Some (getTempoText s)) (positive (rounded num)) (durationFromName name))
  end.
Lemma create_quiet s bpm : Forall quiet s -> createMetronomeMark s bpm = mark_of s bpm.
Proof. intro H. unfold createMetronomeMark. rewrite (unescape_quiet s H), (newlines_quiet s H). reflexivity. Qed.

Lemma detab_quiet s : Forall quiet s -> Forall quiet (map detab s).
Proof.
  intro H. apply Forall_forall. intros c I. apply in_map_iff in I as (x & <- & I). pose proof (proj1 (Forall_forall _ _) H x I) as Q.
  unfold detab. destruct (existsb (N.eqb x) [9; 13; 11; 12]%N); [split; discriminate|exact Q].
Qed.
Lemma strip_quiet p s : Forall quiet s -> Forall quiet (strip_by p s).
Proof. intro H. apply Forall_forall. intros c I. apply strip_in in I. exact (proj1 (Forall_forall _ _) H c I). Qed.

(** What is read of a text without entities that was written. *)
Lemma layout_written s bpm : Forall quiet s -> read_layout (clean s) bpm = mark_of (strip_text (map detab s)) bpm.
Proof.
  intro H. unfold read_layout. rewrite clean_eq. set (z := strip_by outer_space (map detab s)).
  assert (Qz : Forall quiet z) by (apply strip_quiet, detab_quiet, H).
  rewrite unescape_esc, newlines_esc2 by exact Qz. rewrite create_quiet by (rewrite strip_text_by; apply strip_quiet, Qz).
  rewrite !strip_text_by. unfold z. rewrite strip_strip; [reflexivity|]. intros c _ P. unfold outer_space in P. apply andb_prop in P as [P _]. apply andb_prop in P as [P _]. exact P.
Qed.
Lemma strip_idem s : strip_text (strip_text s) = strip_text s.
Proof. rewrite !strip_text_by. apply strip_strip. auto. Qed.
Lemma record_written s bpm : Forall quiet s ->
  read_record (clean s) bpm = match strip_by outer_space (map detab s) with [] => None | z => mark_of z bpm end.
Proof.
  intro H. unfold read_record. assert (I : strip_text (clean s) = clean s) by (unfold clean; apply strip_idem). rewrite I, clean_eq.
  set (z := strip_by outer_space (map detab s)). assert (Qz : Forall quiet z) by (apply strip_quiet, detab_quiet, H).
  rewrite unescape_esc by exact Qz. destruct z as [|c z'] eqn:E; [reflexivity|].
  assert (Ne : flat_map esc2 (c :: z') <> []). { cbn [flat_map]. unfold esc2. destruct (N.eqb c nl); discriminate. }
  assert (R : match flat_map esc2 (c :: z') with [] => None | v => createMetronomeMark (newlines v) bpm end = createMetronomeMark (newlines (flat_map esc2 (c :: z'))) bpm)
    by (destruct (flat_map esc2 (c :: z')); [congruence|reflexivity]).
  rewrite R, newlines_esc2 by exact Qz. apply create_quiet, Qz.
Qed.

(** ** Searching *)
Definition bracket : N := ch "[".
Lemma space_bracket : space bracket = false. Proof. reflexivity. Qed.
Lemma drop_suffix p s : exists a, s = a ++ drop_by p s.
Proof. destruct (drop_split p s) as (a & E & _). eauto. Qed.
Lemma is_prefix_spec p s : is_prefix p s = true -> s = p ++ skipn (length p) s.
Proof.
  revert s. induction p as [|x p IH]; intros s H; [reflexivity|]. destruct s as [|y s]; [discriminate|].
  cbn [is_prefix] in H. apply andb_prop in H as [E H]. apply N.eqb_eq in E. subst y. cbn [length skipn app]. f_equal. apply IH, H.
Qed.
Lemma opening_spec paren s r : opening paren s = Some r -> exists w, s = w ++ bracket :: r.
Proof.
  unfold opening. destruct (is_prefix (if paren then U "([" else U "[") s) eqn:P; [|discriminate].
  intro H. injection H as <-. apply is_prefix_spec in P. destruct paren.
  - exists [ch "("]. exact P.
  - exists []. exact P.
Qed.
Lemma mark_at_spec paren s mm name n : mark_at paren s = Some (mm, name, n) ->
  exists w r num, s = w ++ bracket :: r /\ after_bracket r = Some (name, num) /\ n = number_text num.
Proof.
  unfold mark_at. rewrite skip_spaces_by. destruct (drop_suffix space s) as (a & Ea). set (t := drop_by space s) in *. rewrite Ea. clearbody t. clear Ea s.
  assert (Plain : forall r' : option (text * text * text),
            match opening paren t with Some r => match after_bracket r with Some (nm, num) => Some (@nil N, nm, number_text num) | None => None end | None => None end = r' ->
            r' = Some (mm, name, n) -> exists w r num, a ++ t = w ++ bracket :: r /\ after_bracket r = Some (name, num) /\ n = number_text num).
  { intros r' E R. subst r'. destruct (opening paren t) as [r|] eqn:O; [|discriminate]. destruct (after_bracket r) as [[nm num]|] eqn:A; [|discriminate].
    injection R as <- <- <-. apply opening_spec in O as (w & ->). exists (a ++ w), r, num. rewrite app_assoc. auto. }
  destruct (find (fun f => is_prefix f t) mm_forms) as [f|]; [|intro H; exact (Plain _ eq_refl H)].
  destruct (opening paren (skip_spaces (skipn (length f) t))) as [r|] eqn:O; [|intro H; exact (Plain _ eq_refl H)].
  destruct (after_bracket r) as [[nm num]|] eqn:A; [|intro H; exact (Plain _ eq_refl H)].
  intro H. injection H as <- <- <-. apply opening_spec in O as (w & O).
  rewrite skip_spaces_by in O. destruct (drop_suffix space (skipn (length f) t)) as (b & Eb). rewrite O in Eb.
  exists (a ++ firstn (length f) t ++ b ++ w), r, num. rewrite <- !app_assoc. rewrite <- Eb, firstn_skipn. auto.
Qed.
Lemma search_mark_spec paren s : forall line l mm name n, search_mark paren line s = Some (l, mm, name, n) ->
  exists w r num, s = w ++ bracket :: r /\ after_bracket r = Some (name, num) /\ n = number_text num.
Proof.
  induction s as [|c s IH]; intros line l mm name n H; cbn [search_mark] in H.
  - destruct (mark_at paren []) as [[[m nm] k]|] eqn:E; [|discriminate]. injection H as <- <- <- <-. exact (mark_at_spec _ _ _ _ _ E).
  - destruct (mark_at paren (c :: s)) as [[[m nm] k]|] eqn:E.
    + injection H as <- <- <- <-. exact (mark_at_spec _ _ _ _ _ E).
    + destruct (N.eqb c nl); apply IH in H as (w & r & num & -> & A); exists (c :: w), r, num; auto.
Qed.
Lemma once {A} (a : A) X Y W R : ~ In a X -> ~ In a Y -> X ++ a :: Y = W ++ a :: R -> W = X /\ R = Y.
Proof.
  revert W. induction X as [|x X IH]; intros W NX NY E.
  - destruct W as [|w W]; [injection E as ->; auto|]. injection E as <- E. exfalso. apply NY. rewrite E. apply in_or_app. right. now left.
  - destruct W as [|w W].
    + injection E as <- E. exfalso. apply NX. now left.
    + injection E as <- E. apply IH in E as [-> ->]; [auto|intro I; apply NX; now right|exact NY].
Qed.
Lemma no_bracket_info s : ~ In bracket s -> getMetronomeMarkInfo s = None.
Proof.
  intro N. unfold getMetronomeMarkInfo.
  assert (H : forall p, search_mark p [] s = None).
  { intro p. destruct (search_mark p [] s) as [[[[l m] nm] n]|] eqn:E; [|reflexivity]. apply search_mark_spec in E as (w & r & num & E & _).
    exfalso. apply N. rewrite E. apply in_or_app. right. now left. }
  rewrite !H. reflexivity.
Qed.
Lemma found_false line X Y name num : after_bracket Y = Some (name, num) -> search_mark false line (X ++ bracket :: Y) <> None.
Proof.
  intro A. revert line. induction X as [|x X IH]; intro line.
  - cbn [app search_mark]. assert (M : mark_at false (bracket :: Y) = Some ([], name, number_text num)).
    { unfold mark_at. cbv zeta. change (skip_spaces (bracket :: Y)) with (bracket :: Y). change (find (fun f => is_prefix f (bracket :: Y)) mm_forms) with (@None text).
      change (opening false (bracket :: Y)) with (Some Y). cbv iota. rewrite A. reflexivity. }
    rewrite M. discriminate.
  - cbn [app search_mark]. destruct (mark_at false (x :: X ++ bracket :: Y)) as [[[m nm] k]|]; [discriminate|]. destruct (N.eqb x nl); apply IH.
Qed.
Lemma one_bracket_info X Y name num : ~ In bracket X -> ~ In bracket Y -> after_bracket Y = Some (name, num) ->
  exists l mm, getMetronomeMarkInfo (X ++ bracket :: Y) = Some (l, mm, name, number_text num).
Proof.
  intros NX NY A. unfold getMetronomeMarkInfo.
  assert (H : forall p r, search_mark p [] (X ++ bracket :: Y) = Some r -> exists l mm, Some r = Some (l, mm, name, number_text num)).
  { intros p [[[l mm] nm] n] E. apply search_mark_spec in E as (w & r & num' & E & A' & ->). apply once in E as [-> ->]; [|exact NX|exact NY].
    rewrite A in A'. injection A' as <- <-. eauto. }
  destruct (search_mark true [] (X ++ bracket :: Y)) as [r|] eqn:E; [exact (H _ _ E)|].
  destruct (search_mark false [] (X ++ bracket :: Y)) as [r|] eqn:E'; [exact (H _ _ E')|]. exfalso. exact (found_false _ _ _ _ _ A E').
Qed.
Lemma last_none before s : ~ In bracket s -> last_in_line before s = None.
Proof.
  revert before. induction s as [|c s IH]; intros before N; [reflexivity|]. cbn [last_in_line]. rewrite IH by (intro I; apply N; now right).
  destruct (N.eqb c nl); [reflexivity|]. destruct (opening false (c :: s)) as [r|] eqn:O; [|reflexivity].
  apply opening_spec in O as (w & O). exfalso. apply N. rewrite O. apply in_or_app. right. now left.
Qed.
Lemma last_one bf X Y name num : ~ In bracket Y -> ~ In nl X -> after_bracket Y = Some (name, num) ->
  last_in_line bf (X ++ bracket :: Y) = Some (bf ++ X, name, line_of num).
Proof.
  intros NY NX A. revert bf. induction X as [|x X IH]; intro bf.
  - cbn [app last_in_line]. change (N.eqb bracket nl) with false. cbv iota. rewrite last_none by exact NY. change (opening false (bracket :: Y)) with (Some Y). cbv iota. rewrite A, app_nil_r. reflexivity.
  - cbn [app last_in_line]. rewrite (proj2 (N.eqb_neq x nl)) by (intros ->; apply NX; now left). rewrite IH by (intro I; apply NX; now right).
    rewrite <- app_assoc. reflexivity.
Qed.
Lemma search_tempo_one X Y name num : ~ In bracket Y -> ~ In nl X -> after_bracket Y = Some (name, num) ->
  search_tempo true (X ++ bracket :: Y) = Some (X, name, line_of num).
Proof.
  intros NY NX A. pose proof (last_one [] X Y name num NY NX A) as L.
  destruct (X ++ bracket :: Y) as [|c s] eqn:E; [destruct X; discriminate|]. cbn [search_tempo]. rewrite L. reflexivity.
Qed.

(** ** The part after the bracket *)
Lemma span_text_all p a b : forallb p a = true -> match b with c :: _ => p c = false | [] => True end -> span_text p (a ++ b) = (a, b).
Proof.
  intros H B. induction a as [|c a IH]; cbn [app span_text].
  - destruct b as [|c b]; [reflexivity|]. cbn. rewrite B. reflexivity.
  - cbn [forallb] in H. apply andb_prop in H as [Hc H]. rewrite Hc, (IH H). reflexivity.
Qed.
Lemma skip_all_spaces a b : forallb space a = true -> match b with c :: _ => space c = false | [] => True end -> skip_spaces (a ++ b) = b.
Proof.
  intros H B. rewrite skip_spaces_by, drop_app_all by exact H. destruct b as [|c b]; [reflexivity|]. cbn. rewrite B. reflexivity.
Qed.
Lemma digit_space d : digit d = true -> space d = false.
Proof.
  unfold digit, space. rewrite andb_true_iff, !N.leb_le. intros [A B].
  assert (C : In d (map N.of_nat (seq 48 10))). { apply in_map_iff. exists (N.to_nat d). split; [apply N2Nat.id|]. apply in_seq. lia. }
  cbn in C. repeat (destruct C as [<-|C]; [reflexivity|]). destruct C.
Qed.
Lemma after_bracket_eq name E F d C : forallb (fun c => negb (N.eqb c (ch "=")) && negb (N.eqb c (ch "]"))) name = true ->
  forallb space E = true -> forallb space F = true -> digit d = true ->
  after_bracket (name ++ ch "]" :: E ++ ch "=" :: F ++ d :: C) = Some (name, d :: C).
Proof.
  intros Hn HE HF Hd. unfold after_bracket. rewrite span_text_all by (exact Hn || reflexivity).
  change (N.eqb (ch "]") (ch "]")) with true. cbv iota. rewrite skip_all_spaces by (exact HE || reflexivity).
  change (N.eqb (ch "=") (ch "=")) with true. cbv iota. rewrite skip_all_spaces by (exact HF || (cbv beta iota; apply digit_space, Hd)).
  rewrite Hd. reflexivity.
Qed.
