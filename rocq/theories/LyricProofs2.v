(** Lemmas about lyrics: what is read of what is written. *)
From Coq Require Import List Ascii String Arith NArith ZArith Lia Bool Sorted.
From Verif Require Import PyStr PyStrProofs LayoutModel SignifierModel BarModel SignifierProofs LyricModel LyricProofs.
Import ListNotations.

(** ** What is taken of Python's libraries *)

(** [html.unescape] leaves a text without `&` alone. *)
Definition html_ok (html : str -> str) : Prop := forall s, ~ In "&"%char s -> html s = s.

(** A pattern of ordinary characters and full stops (a full stop stands for any
    character) is found in a text if some piece of the text has its length and
    fits it character by character. *)
Definition simple (c : ascii) : bool := plain_char c || Ascii.eqb c "."%char.
Definition fits (p t : str) : Prop := Forall2 (fun c d => c = "."%char \/ c = d) p t.
Definition re_ok (re : str -> str -> option bool) : Prop :=
  forall p s, forallb simple p = true -> ~ In newline s ->
    exists b, re p s = Some b /\ (b = true <-> exists a t z, s = a ++ t ++ z /\ fits p t).

(** ** Conditions *)

(** A text that is not changed: it does not begin with `!` or `*`, is not a lone
    full stop, and has no `&`, no backslash followed by `n`, and no mark of the file. *)
Definition text_ok (marks : list str) (t : str) : Prop :=
  (forall c r, t = c :: r -> c <> "!"%char /\ c <> "*"%char) /\ t <> S_ "." /\ ~ In "&"%char t /\ ~ mentions (S_ "\n") t
  /\ Forall (fun m => ~ mentions m t) marks.
(** A label that is not changed: of ordinary characters and full stops, some of
    which is neither a full stop nor the letter d. *)
Definition label_ok (t : str) : Prop :=
  forallb simple t = true /\ exists c, In c t /\ c <> "."%char /\ c <> "d"%char.

(** The lyric has the words, and they are not changed; a lyric without words has no label. *)
Definition lyric_ok (marks : list str) (l : lyric) : Prop :=
  exists ws, words_of (ly_raw l) ws /\ (ws <> [] -> text_ok marks (join (S_ " ") ws))
    /\ match ly_id l with None => True | Some t => label_ok t /\ ws <> [] end.

(** The verse shows the lyric. *)
Definition shown (l : lyric) (v : verse) : Prop :=
  Z.of_nat (v_num v) = ly_num l /\ v_label v = ly_id l /\ v_color v = None /\ v_asis v = false
  /\ exists ws, words_of (ly_raw l) ws /\ ws <> [] /\ parts_of ws (v_parts v).

(** ** Small facts *)

Lemma replace_none old new : old <> [] -> forall n s, ~ mentions old s -> replace_fuel n old new s = s.
Proof.
  intro NE. induction n as [|n IH]; intros s M; [reflexivity|]. destruct s as [|c s]; [reflexivity|]. cbn [replace_fuel].
  destruct (starts_with old (c :: s)) eqn:E.
  - exfalso. apply M. apply contains_iff. cbn [contains]. rewrite E. reflexivity.
  - f_equal. apply IH. intros (a & b & Q). apply M. exists (c :: a), b. rewrite Q. reflexivity.
Qed.
Lemma join_part (sep p : str) : forall ps, In p ps -> exists a b, join sep ps = a ++ p ++ b.
Proof.
  induction ps as [|q ps IH]; intros H; [destruct H|]. destruct H as [->|H].
  - destruct ps; [exists [], []; cbn; rewrite app_nil_r; reflexivity|]. exists []. eexists. reflexivity.
  - destruct (IH H) as (a & b & E). destruct ps as [|q2 ps]; [destruct H|]. exists (q ++ sep ++ a), b.
    change (join sep (q :: q2 :: ps)) with (q ++ sep ++ join sep (q2 :: ps)). rewrite E, <- !app_assoc. reflexivity.
Qed.
Lemma join_app (sep : str) a b : a <> [] -> b <> [] -> join sep (a ++ b) = join sep a ++ sep ++ join sep b.
Proof.
  intros A B. induction a as [|x a IH]; [contradiction|]. destruct a as [|y a].
  - cbn [app]. destruct b; [contradiction|]. reflexivity.
  - change (join sep ((x :: y :: a) ++ b)) with (x ++ sep ++ join sep ((y :: a) ++ b)). rewrite IH by discriminate.
    change (join sep (x :: y :: a)) with (x ++ sep ++ join sep (y :: a)). rewrite <- !app_assoc. reflexivity.
Qed.
Lemma join_concat (sep : str) : forall gs, Forall (fun g => g <> []) gs -> join sep (concat gs) = join sep (map (join sep) gs).
Proof.
  intros gs F. induction F as [|g gs G F IH]; [reflexivity|]. cbn [concat map]. destruct gs as [|g2 gs].
  - cbn. rewrite app_nil_r. reflexivity.
  - rewrite join_app; [|exact G|]; [|inversion F; subst; destruct g2; [contradiction|discriminate]].
    rewrite IH. reflexivity.
Qed.
(** The parts, with blanks between them, are the words with blanks between them. *)
Lemma parts_join ws ps : parts_of ws ps -> join (S_ " ") ps = join (S_ " ") ws.
Proof.
  intros (gs & <- & -> & F & _). symmetry. apply join_concat. revert F. apply Forall_impl. tauto.
Qed.
Lemma part_mentions ws ps p m : parts_of ws ps -> In p ps -> mentions m p -> mentions m (join (S_ " ") ws).
Proof.
  intros P I (a & b & E). rewrite <- (parts_join ws ps P). destruct (join_part (S_ " ") p ps I) as (x & y & J).
  unfold str in *. rewrite J, E. exists (x ++ a), (b ++ y). rewrite <- !app_assoc. reflexivity.
Qed.
Lemma part_in ws ps p c : parts_of ws ps -> In p ps -> In c p -> In c (join (S_ " ") ws).
Proof.
  intros P I C. rewrite <- (parts_join ws ps P). destruct (join_part (S_ " ") p ps I) as (x & y & J).
  unfold str in *. rewrite J. rewrite !in_app_iff. auto.
Qed.
Lemma colorVerse_none : forall colors t, Forall (fun m => ~ mentions m t) (map fst colors) -> colorVerse colors t = Some (None, t).
Proof.
  induction colors as [|(m, c) r IH]; intros t F; [reflexivity|]. cbn [map fst] in F. inversion F as [|? ? M F']; subst.
  cbn [colorVerse]. apply contains_false in M. rewrite M. apply IH, F'.
Qed.

Lemma label_text re t : re_ok re -> label_ok t -> getVerseLabelText re (S_ "*v:" ++ t) = Some t.
Proof.
  intros R (S0 & c & I & C1 & C2). unfold getVerseLabelText.
  replace (starts_with (S_ "*v:") (S_ "*v:" ++ t)) with true by (destruct t; reflexivity).
  replace (skipn 3 (S_ "*v:" ++ t)) with t by reflexivity.
  destruct (R t (S_ "^\d+$") S0) as (b & E & B); [vm_compute; intuition discriminate|]. rewrite E. destruct b; [|reflexivity].
  exfalso. destruct (proj1 B eq_refl) as (a & u & z & Q & F).
  assert (K : In c (S_ "^\d+$")).
  { rewrite Q, !in_app_iff. right. left. clear - F I C1. induction F as [|x y p q [X|X] F IH]; [destruct I| |]; destruct I as [->|I];
      [contradiction|right; auto|left; congruence|right; auto]. }
  rewrite forallb_forall in S0. specialize (S0 c I). vm_compute in K.
  repeat match type of K with _ \/ _ => destruct K as [K|K] | False => destruct K end; subst c; try discriminate S0. apply C2; reflexivity.
Qed.

(** ** What is read *)

Inductive matches : nat -> list (option lyric) -> list verse -> Prop :=
| mt_nil : forall i, matches i [] []
| mt_none : forall i r out, matches (S i) r out -> matches i (None :: r) out
| mt_empty : forall i l r out, words_of (ly_raw l) [] -> matches (S i) r out -> matches i (Some l :: r) out
| mt_some : forall i l v r out, Z.of_nat i = (ly_num l - 1)%Z -> v_num v = S i -> shown l v -> matches (S i) r out -> matches i (Some l :: r) (v :: out).

Definition slot_ok (marks : list str) (i : nat) (o : option lyric) : Prop :=
  match o with None => True | Some l => lyric_ok marks l /\ Z.of_nat i = (ly_num l - 1)%Z end.
Fixpoint slots_ok (marks : list str) (i : nat) (vs : list (option lyric)) : Prop :=
  match vs with [] => True | o :: r => slot_ok marks i o /\ slots_ok marks (S i) r end.

Lemma labs_above : forall l i, Forall (fun x => i <= fst x) (labs i l).
Proof.
  induction l as [|[t|] l IH]; intro i; cbn [labs]; [constructor|constructor; [cbn; lia|]|].
  - specialize (IH (S i)). revert IH. apply Forall_impl. intros; lia.
  - specialize (IH (S i)). revert IH. apply Forall_impl. intros; lia.
Qed.
Lemma filter_above i l : Forall (fun x : nat * str => S i <= fst x) l ->
  filter (fun x => fst x =? i) l = [] /\ filter (fun x => negb (fst x =? i)) l = l.
Proof.
  intro F. induction F as [|x l X F (I1 & I2)]; [split; reflexivity|]. cbn [filter].
  replace (fst x =? i) with false by (symmetry; apply Nat.eqb_neq; lia). cbn [negb]. rewrite I1, I2. split; reflexivity.
Qed.

Section Read.
Context (html : str -> str) (re : str -> str -> option bool) (colors : list (str * str)).
Context (H_html : html_ok html) (H_re : re_ok re).

Lemma read_nulls k : forall i labels, convertVerses html re colors labels i (text_fields i (repeat (S_ ".") k)) = Some ([], labels).
Proof. induction k as [|k IH]; intros i labels; [reflexivity|]. cbn. apply IH. Qed.

Lemma read_verses k : forall vs i, slots_ok (map fst colors) i vs ->
  exists out, convertVerses html re colors (labs i (map verse_label vs)) i (text_fields i (map verse_token vs ++ repeat (S_ ".") k)) = Some (out, [])
    /\ matches i vs out.
Proof.
  induction vs as [|o vs IH]; intros i F.
  - exists []. cbn [map labs app]. split; [apply read_nulls|constructor].
  - cbn [slots_ok] in F. destruct F as (O & F). destruct (IH (S i) F) as (out & E & M). cbn [map app text_fields].
    destruct o as [l|].
    2:{ exists out. split; [exact E|constructor; exact M]. }
    destruct O as ((ws & W & T & L) & N).
    assert (EW : cleanSpaces (ly_raw l) = join (S_ " ") ws) by (unfold cleanSpaces; rewrite (words_of_py _ _ W); reflexivity).
    destruct ws as [|w ws].
    + (* no words *)
      exists out. assert (I : ly_id l = None) by (destruct (ly_id l); [destruct L; contradiction|reflexivity]).
      assert (E1 : verse_token (Some l) = S_ ".") by (unfold verse_token; rewrite EW; reflexivity).
      assert (E2 : verse_label (Some l) = None) by (destruct l as [n0 r0 i0]; cbn in I; subst; reflexivity).
      rewrite E1, E2. split; [exact E|apply mt_empty; assumption].
    + specialize (T ltac:(discriminate)). pose proof (words_good _ _ W) as WG. set (wds := w :: ws) in *.
      assert (NW : wds <> []) by discriminate.
      destruct T as (T1 & T2 & T3 & T4 & T5). set (t := join (S_ " ") wds) in *.
      assert (NT : t <> []) by (apply join_nonnil; inversion WG; tauto).
      assert (E1 : verse_token (Some l) = t).
      { unfold verse_token. rewrite EW. destruct t as [|c r]; [contradiction|]. destruct (T1 c r eq_refl) as (A & B).
        unfold char_in. cbn [existsb S_ list_ascii_of_string].
        apply Ascii.eqb_neq in A, B. rewrite A, B. reflexivity. }
      assert (NN : is_null t = false).
      { unfold is_null. apply orb_false_iff. split; [apply orb_false_iff; split|]; apply str_eqb_neq; [exact T2| |];
          intro K; destruct (T1 _ _ K) as (A & B); [apply B|apply A]; reflexivity. }
      destruct (parts_spec wds NW WG) as (ps & EP & PO). fold t in EP.
      assert (RT : forall lbl, read_text html colors (S i) lbl KText t = Some (Some (mkVerse (S i) lbl None false ps))).
      { intro lbl. unfold read_text. destruct t as [|c0 t0] eqn:Et; [contradiction|]. rewrite <- Et in *.
        rewrite colorVerse_none by exact T5. rewrite EP. f_equal. f_equal. f_equal.
        rewrite <- (map_id ps) at 2. apply map_ext_in. intros p P. rewrite H_html.
        - apply replace_none; [discriminate|]. intro K. apply T4. exact (part_mentions _ _ _ _ PO P K).
        - intro K. apply T3. exact (part_in _ _ _ _ PO P K). }
      assert (LB : exists mine, getVerseLabels i (labs i (verse_label (Some l) :: map verse_label vs)) = (mine, labs (S i) (map verse_label vs))
                    /\ label_of re mine = Some (ly_id l)).
      { unfold getVerseLabels. destruct (filter_above i _ (labs_above (map verse_label vs) (S i))) as (A & B).
        destruct l as [n0 r0 i0]; cbn [ly_id] in *. destruct i0 as [lt|].
        - destruct L as (LO & _). destruct lt as [|c lt]; [destruct LO as (_ & c & [] & _)|].
          cbn [verse_label labs filter fst]. rewrite Nat.eqb_refl. cbn [negb map snd]. unfold str in *. rewrite A, B. eexists. split; [reflexivity|].
          cbn [label_of map]. pose proof (label_text re (c :: lt) H_re LO) as K. unfold str in *. cbn [snd]. rewrite K. reflexivity.
        - cbn [verse_label labs]. unfold str in *. rewrite A, B. eexists. split; reflexivity. }
      destruct LB as (mine & G & LO).
      cbn [convertVerses f_text f_kind f_spine]. rewrite E1, NN. cbn [orb andb].
      rewrite G, LO. cbn [hd]. rewrite RT. rewrite E. eexists. split; [reflexivity|].
      apply mt_some; [exact N|reflexivity| |exact M]. split; [cbn; lia|]. split; [reflexivity|]. split; [reflexivity|]. split; [reflexivity|].
      exists wds. auto.
Qed.
End Read.

Lemma matches_above : forall i vs out, matches i vs out -> Forall (fun v => i < v_num v) out.
Proof.
  intros i vs out M. induction M; [constructor| | |].
  - revert IHM. apply Forall_impl. intros; lia.
  - revert IHM. apply Forall_impl. intros; lia.
  - constructor; [lia|]. revert IHM. apply Forall_impl. intros; lia.
Qed.
Lemma matches_sorted : forall i vs out, matches i vs out -> StronglySorted lt (map v_num out).
Proof.
  intros i vs out M. induction M; [constructor|exact IHM|exact IHM|]. cbn [map]. constructor; [exact IHM|].
  apply Forall_map. pose proof (matches_above _ _ _ M) as K. revert K. apply Forall_impl. intros; lia.
Qed.
Lemma matches_from : forall i vs out, matches i vs out -> forall v, In v out -> exists j l, nth_error vs j = Some (Some l) /\ v_num v = S (i + j) /\ shown l v.
Proof.
  intros i vs out M. induction M as [| | |i l v r out N V SH M IH]; intros x X; [destruct X| | |].
  - destruct (IHM x X) as (j & l & A & B & C). exists (S j), l. split; [exact A|]. split; [lia|exact C].
  - destruct (IHM x X) as (j & l' & A & B & C). exists (S j), l'. split; [exact A|]. split; [lia|exact C].
  - destruct X as [->|X]; [exists 0, l; split; [reflexivity|]; split; [lia|exact SH]|].
    destruct (IH x X) as (j & l' & A & B & C). exists (S j), l'. split; [exact A|]. split; [lia|exact C].
Qed.
Lemma matches_to : forall i vs out, matches i vs out -> forall j l, nth_error vs j = Some (Some l) -> ~ words_of (ly_raw l) [] ->
  exists v, In v out /\ v_num v = S (i + j) /\ shown l v.
Proof.
  intros i vs out M. induction M as [| |i l0 r out W M IH|i l0 v r out N V SH M IH]; intros j l E NW.
  - destruct j; discriminate.
  - destruct j; [discriminate|]. destruct (IHM j l E NW) as (v & A & B & C). exists v. split; [exact A|]. split; [lia|exact C].
  - destruct j; [injection E as ->; contradiction|]. destruct (IH j l E NW) as (v & A & B & C). exists v. split; [exact A|]. split; [lia|exact C].
  - destruct j; [injection E as ->; exists v; split; [left; reflexivity|]; split; [lia|exact SH]|].
    destruct (IH j l E NW) as (x & A & B & C). exists x. split; [right; exact A|]. split; [lia|exact C].
Qed.
