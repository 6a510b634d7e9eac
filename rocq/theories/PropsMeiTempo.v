(** Properties of metronome marks in MEI: C152 and C153. *)
From Coq Require Import List Ascii String Arith NArith ZArith QArith Lia Bool.
From Verif Require Import PyStr PyStrProofs DateModel LayoutModel LayoutProofs ClefModel LyricProofs2 MeiTextModel MeiIdsModel MeiStyleModel PropsMeiText PropsMeiStyle TokenProofs2 PropsMeiLyrics MeiTempoModel.
Import ListNotations.
Local Close Scope Q_scope.

(** ** C152: a metronome mark keeps its number and shows it *)

(** The sign for a note of a type, by its name in SMuFL. *)
Definition signs : list (string * string) :=
  [ ("breve", "metNoteDoubleWhole"); ("whole", "metNoteWhole"); ("half", "metNoteHalfUp"); ("quarter", "metNoteQuarterUp");
    ("eighth", "metNote8thUp"); ("16th", "metNote16thUp"); ("32nd", "metNote32ndUp"); ("64th", "metNote64thUp");
    ("128th", "metNote128thUp"); ("256th", "metNote256thUp"); ("512th", "metNote512thUp"); ("1024th", "metNote1024thUp") ]%string.
(** The signs can be seen: they are no spaces and not the ampersand of XML. *)
Definition visible (s : str) : Prop := s <> [] /\ Forall (fun c => is_space c = false /\ c <> "&"%char) s.
Definition visible_signs (smufl : str -> str) : Prop :=
  visible (smufl (S_ "metAugmentationDot")) /\ forall t n, In (t, n) signs -> visible (smufl (S_ n)).
(** The place of a mark in the score: it has a time stamp, and the attributes of its
    text are not among the others. *)
Definition stamped (attr : list (str * str)) : Prop :=
  In (S_ "tstamp") (map fst attr) /\ absent "midi.bpm" attr /\ absent "enclose" attr /\ absent "place" attr /\ absent "type" attr /\ absent "startid" attr.

(** What is shown: the words, if they are not implied by the number, and the note with
    its dots and the number. *)
Definition shown (smufl : str -> str) (words : option str) (sign : string) (dots : nat) (n : Z) : str :=
  match words with Some w => w ++ S_ " " | None => [] end
  ++ smufl (S_ sign) ++ List.concat (repeat (smufl (S_ "metAugmentationDot")) dots) ++ S_ " = " ++ show_Z n.

Lemma assoc_app {V} k (a b : list (str * V)) : ~ In k (map fst a) -> assoc_str k (a ++ b) = assoc_str k b.
Proof.
  induction a as [|[x v] a IH]; intro N; [reflexivity|]. cbn [app assoc_str]. destruct (str_eqb k x) eqn:E.
  - apply str_eqb_eq in E. subst. exfalso. apply N. left. reflexivity.
  - apply IH. intro I. apply N. right. exact I.
Qed.
Lemma assoc_app_in {V} k (a b : list (str * V)) : In k (map fst a) -> exists v, assoc_str k (a ++ b) = Some v.
Proof.
  induction a as [|[x v] a IH]; intro N; [destruct N|]. cbn [app assoc_str]. destruct (str_eqb k x) eqn:E; [eauto|].
  apply IH. destruct N as [N|N]; [|exact N]. cbn in N. subst. rewrite str_eqb_refl in E. discriminate.
Qed.
Lemma stylistic_keys o k : In k (map fst (stylisticAttributes o)) -> In k [S_ "place"; S_ "visible"; S_ "color"].
Proof.
  unfold stylisticAttributes. rewrite map_app, in_app_iff. intros [H|H].
  - destruct (m21PlacementToMei o); cbn [attr_if map fst In] in H; [destruct H|]. destruct H as [<-|[]]. left. reflexivity.
  - destruct (o_style o) as [s|]; [|destruct H]. rewrite map_app, in_app_iff in H. destruct H as [H|H].
    + destruct (t_hide s); [|destruct H]. destruct H as [<-|[]]. right. left. reflexivity.
    + destruct (opt_str (t_color s)); cbn [attr_if map fst In] in H; [destruct H|]. destruct H as [<-|[]]. right. right. left. reflexivity.
Qed.
Lemma trunc_bounds q : (0 <= q)%Q -> (inject_Z (py_int_of q) <= q)%Q /\ (q < inject_Z (py_int_of q) + 1)%Q.
Proof.
  destruct q as [n d]. unfold Qle, Qlt, py_int_of, inject_Z, Qplus. cbn. rewrite ?Z.mul_1_r, ?Pos.mul_1_r. intro P.
  rewrite Z.quot_div_nonneg by lia. pose proof (Z.div_mod n (Z.pos d) ltac:(lia)). pose proof (Z.mod_pos_bound n (Z.pos d) ltac:(lia)). split; lia.
Qed.
Lemma trunc_Qeq a b : (a == b)%Q -> py_int_of a = py_int_of b.
Proof.
  destruct a as [n d], b as [n' d']. unfold Qeq, py_int_of. cbn. intro E.
  rewrite <- (Z.quot_mul_cancel_r n (Z.pos d) (Z.pos d')) by lia. rewrite <- (Z.quot_mul_cancel_r n' (Z.pos d') (Z.pos d)) by lia.
  rewrite E. f_equal. lia.
Qed.

Lemma digit_seen c : is_digit c = true -> is_space c = false /\ c <> "&"%char.
Proof. revert c. destruct c as [[] [] [] [] [] [] [] []]; vm_compute; intro H; (discriminate H || (split; [reflexivity|discriminate])). Qed.
(** Texts that begin and end with what can be seen. *)
Lemma trimmed_join a b m : trimmed a -> trimmed b -> trimmed (a ++ m ++ b).
Proof.
  intros (A & A') (B & B'). split.
  - destruct a; [destruct A|exact A].
  - rewrite !rev_app_distr. destruct (rev b); [destruct B'|exact B'].
Qed.
Lemma visible_trimmed s : visible s -> trimmed s.
Proof.
  intros (N & F). split.
  - destruct s; [congruence|]. inversion F as [|? ? X Y]. apply X.
  - apply Forall_rev in F. assert (N' : rev s <> []) by (intro E; apply N; apply (f_equal (@rev _)) in E; rewrite rev_involutive in E; exact E).
    destruct (rev s); [congruence|]. inversion F as [|? ? X Y]. apply X.
Qed.
Lemma show_visible n : visible (show_N n).
Proof.
  destruct (show_N_cons n) as (c & s & E & D). split; [rewrite E; discriminate|]. apply Forall_forall. intros x I. apply digit_seen.
  pose proof (show_N_digits n) as F. rewrite forallb_forall in F. auto.
Qed.
Lemma show_Z_visible z : (0 <= z)%Z -> visible (show_Z z).
Proof. destruct z; intro H; [apply show_visible|apply show_visible|lia]. Qed.
Lemma visible_app a b : visible a -> visible b -> visible (a ++ b).
Proof. intros (N & F) (N' & F'). split; [destruct a; [congruence|discriminate]|]. apply Forall_app. auto. Qed.
Lemma visible_dots s d n : visible s -> visible d -> visible (s ++ List.concat (repeat d n)).
Proof.
  intros S D. induction n as [|n IH]; [cbn; rewrite app_nil_r; exact S|].
  destruct S as (N & F). split; [destruct s; [congruence|discriminate]|]. apply Forall_app. split; [exact F|]. cbn. apply Forall_app. split; [apply D|].
  destruct IH as (_ & IH). apply Forall_app in IH. apply IH.
Qed.
Lemma visible_no_amp s : visible s -> ~ In "&"%char s.
Proof. intros (_ & F) I. rewrite Forall_forall in F. destruct (F _ I) as (_ & K). congruence. Qed.

(** What is read from the attributes of a written mark. *)
Lemma written_attrs attr o v : stamped attr -> let a := attr ++ stylisticAttributes o ++ [(S_ "midi.bpm", v)] in
  x_get (S_ "midi.bpm") a = v /\ x_get (S_ "enclose") a = [] /\ x_get (S_ "type") a = [] /\ x_get (S_ "startid") a = [] /\ (exists s, assoc_str (S_ "tstamp") a = Some s).
Proof.
  intros (T & M & E & P & Y & S). cbv zeta.
  assert (K : forall k, ~ In k [S_ "place"; S_ "visible"; S_ "color"] -> ~ In k (map fst (stylisticAttributes o))) by (intros k N I; apply N; eapply stylistic_keys; exact I).
  repeat split.
  - unfold x_get. rewrite (assoc_app _ attr) by exact M. rewrite assoc_app by (apply K; intros [X|[X|[X|[]]]]; discriminate). cbn [assoc_str]. eqbs. reflexivity.
  - unfold x_get. rewrite (assoc_app _ attr) by exact E. rewrite assoc_app by (apply K; intros [X|[X|[X|[]]]]; discriminate). reflexivity.
  - unfold x_get. rewrite (assoc_app _ attr) by exact Y. rewrite assoc_app by (apply K; intros [X|[X|[X|[]]]]; discriminate). reflexivity.
  - unfold x_get. rewrite (assoc_app _ attr) by exact S. rewrite assoc_app by (apply K; intros [X|[X|[X|[]]]]; discriminate). reflexivity.
  - apply assoc_app_in. exact T.
Qed.

Section Marks.
Context (smufl : str -> str) (show : Q -> str) (html gn gm set_size : str -> str) (set_family : str -> list str) (set_justify : str -> option str)
        (float_of : str -> option Q).
Local Notation read := (read_event html gn gm set_size set_family set_justify float_of).

(** What the texts of an element are made to. *)
Lemma read_stamped pending attr o v t subs tail : stamped attr -> v <> [] ->
  let e := El (S_ "tempo") (attr ++ stylisticAttributes o ++ [(S_ "midi.bpm", v)]) t subs tail in
  sget "justify" (snd (text_of gn gm [] e)) = [] ->
  exists m', read pending (ETempo e) = Some ([], [m'])
    /\ m_text m' = Some (strip (html (fst (text_of gn gm [] e)))) /\ m_number m' = option_map inject_Z (option_map py_int_of (float_of v))
    /\ m_ql m' = 1%Q /\ m_type m' = S_ "quarter" /\ m_dots m' = 0 /\ m_textImplicit m' = false /\ m_numberImplicit m' = true.
Proof.
  intros St V. cbv zeta. pose proof (written_attrs attr o v St) as W. cbv zeta in W. revert W.
  set (a := attr ++ stylisticAttributes o ++ [(S_ "midi.bpm", v)]). intros (M & E & Y & S & (s & T)) J.
  change (x_get (S_ "midi.bpm") a = v) in M. change (x_get (S_ "enclose") a = []) in E. change (x_get (S_ "type") a = []) in Y.
  change (x_get (S_ "startid") a = []) in S. change (assoc_str (S_ "tstamp") a = Some s) in T. clearbody a. set (e := El (S_ "tempo") a t subs tail) in *. unfold read_event.
  assert (X : x_attrs e = a) by reflexivity. clearbody e.
  assert (P : pp_one html gn gm KTempo e = None) by (unfold pp_one; rewrite X; cbv zeta iota; rewrite S; reflexivity).
  rewrite P. unfold has_attr. rewrite X, Y, T. cbv [orb negb]. change (str_eqb [] (S_ "fingering")) with false. cbv iota.
  unfold dirFromElement. destruct (text_of gn gm [] e) as [tx d]. cbn [fst snd] in *. rewrite X, E, J. unfold textExpressionFromPieces.
  eexists. split; [reflexivity|]. rewrite M. cbn [mark_of m_text m_number m_ql m_type m_dots m_textImplicit m_numberImplicit metronomeMarkFromText o_text]. split; [reflexivity|]. split; [|auto 6].
  destruct v; [congruence|reflexivity].
Qed.

(** Numbers are written so that they can be read. *)
Definition numbers_ok : Prop := forall q, show q <> [] /\ exists q', float_of (show q) = Some q' /\ (q' == q)%Q.
(** The number of the mark: the one that is shown, or else the one that sounds. *)
Definition beats (m : mmark) (n : Q) : Prop := m_number m = Some n \/ m_number m = None /\ m_sounding m = Some n.

Lemma number_read lay1 lay2 tail attr m n e pending : numbers_ok -> stamped attr -> m_numberImplicit m = false -> beats m n ->
  write_tempo smufl show lay1 lay2 tail attr m = Some (Some e) ->
  exists m', read pending (ETempo e) = Some ([], [m']) /\ m_text m' = Some (strip (html (fst (text_of gn gm [] e))))
    /\ m_number m' = Some (inject_Z (py_int_of (n * m_ql m)%Q)) /\ m_ql m' = 1%Q /\ m_type m' = S_ "quarter" /\ m_dots m' = 0 /\ m_textImplicit m' = false /\ m_numberImplicit m' = true.
Proof.
  intros NO St NI B. unfold write_tempo. rewrite NI.
  assert (N : match m_number m with Some n => Some n | None => m_sounding m end = Some n) by (destruct B as [->|(-> & ->)]; reflexivity).
  rewrite N. destruct (NO (n * m_ql m)%Q) as (V & q' & F & Q). pose proof (trunc_Qeq _ _ Q) as TQ.
  destruct (mixed_text smufl m) as [[t [r|]]|]; intro W; [injection W as <-|injection W as <-|discriminate]; rewrite <- app_assoc.
  - match goal with |- context [ETempo (El _ _ ?tt ?ss ?tl)] => destruct (read_stamped pending attr (TextObj (opt_str (m_text m)) (m_place m) (m_style m)) _ tt ss tl St V) as (m' & R & X & Y & Z) end; [reflexivity|].
    exists m'. split; [exact R|]. split; [exact X|]. split; [|exact Z]. rewrite Y, F. cbn [option_map]. rewrite TQ. reflexivity.
  - match goal with |- context [ETempo (El _ _ ?tt ?ss ?tl)] => destruct (read_stamped pending attr (TextObj (opt_str (m_text m)) (m_place m) (m_style m)) _ tt ss tl St V) as (m' & R & X & Y & Z) end; [reflexivity|].
    exists m'. split; [exact R|]. split; [exact X|]. split; [|exact Z]. rewrite Y, F. cbn [option_map]. rewrite TQ. reflexivity.
Qed.

(** A number that is not implied by the text is read as quarter notes per minute, whatever
    the note it was given for; a fraction of a beat is dropped.  (In full a mark would keep
    its number and its note.)  The words read are shown, the number is not. *)
Theorem C152_number_partial : forall lay1 lay2 tail attr m n e pending, numbers_ok -> stamped attr -> m_numberImplicit m = false -> beats m n ->
  write_tempo smufl show lay1 lay2 tail attr m = Some (Some e) ->
  exists m' z, read pending (ETempo e) = Some ([], [m']) /\ m_number m' = Some (inject_Z z) /\ m_type m' = S_ "quarter" /\ m_ql m' = 1%Q
    /\ m_dots m' = 0 /\ m_textImplicit m' = false /\ m_numberImplicit m' = true
    /\ ((0 <= n * m_ql m)%Q -> (inject_Z z <= n * m_ql m)%Q /\ (n * m_ql m < inject_Z z + 1)%Q)
    /\ (forall k, (n * m_ql m == inject_Z k)%Q -> z = k).
Proof.
  intros lay1 lay2 tail attr m n e pending NO St NI B W. destruct (number_read _ _ _ _ _ _ _ pending NO St NI B W) as (m' & R & _ & N & L & T & Dt & I1 & I2).
  exists m', (py_int_of (n * m_ql m)%Q). split; [exact R|]. split; [exact N|]. split; [exact T|]. split; [exact L|]. split; [exact Dt|]. split; [exact I1|]. split; [exact I2|]. split.
  - apply trunc_bounds.
  - intros k E. rewrite (trunc_Qeq _ _ E). unfold py_int_of, inject_Z. cbn. apply Z.quot_1_r.
Qed.

(** The words, the note and the number are all shown after reading, for every note but
    the thirty-second; a number with a fraction loses it. *)
Theorem C152_shown_partial : forall lay1 lay2 tail attr m n k w sign pending, numbers_ok -> html_ok html -> visible_signs smufl -> lay lay1 -> lay lay2 ->
  stamped attr -> m_numberImplicit m = false -> m_number m = Some n -> (0 <= n)%Q -> (inject_Z k <= n)%Q -> (n < inject_Z k + 1)%Q ->
  (m_text m = Some w /\ trimmed w /\ ~ In "&"%char w) -> (exists t, m_type m = S_ t /\ In (t, sign) signs /\ t <> "32nd"%string) ->
  exists e m', write_tempo smufl show lay1 lay2 tail attr m = Some (Some e) /\ read pending (ETempo e) = Some ([], [m'])
    /\ m_text m' = Some (shown smufl (if m_textImplicit m then None else Some w) sign (m_dots m) k).
Proof.
  intros lay1 lay2 tail attr m n k w sign pending NO HO (VD & VS) L1 L2 St NI N P K1 K2 (Tx & Tr & Am) (t & Ty & I & D).
  assert (K : py_int_of n = k).
  { destruct (trunc_bounds n P) as (B1 & B2). revert K1 K2 B1 B2. destruct n as [a b]. unfold Qle, Qlt, inject_Z, Qplus. cbn. generalize (py_int_of (a # b)). clear. intros z. rewrite ?Z.mul_1_r, ?Pos.mul_1_r. intros H1 H2 H3 H4.
    assert (k * Z.pos b < (z + 1) * Z.pos b)%Z by lia. assert (z * Z.pos b < (k + 1) * Z.pos b)%Z by lia.
    apply Z.mul_lt_mono_pos_r in H; [|lia]. apply Z.mul_lt_mono_pos_r in H0; [|lia]. lia. }
  assert (Hd : note_head smufl (m_type m) (m_dots m) = Some (smufl (S_ sign) ++ List.concat (repeat (smufl (S_ "metAugmentationDot")) (m_dots m)))).
  { rewrite Ty. assert (G : forall d : nat, match d with O => Some (smufl (S_ sign)) | _ => Some (smufl (S_ sign) ++ List.concat (repeat (smufl (S_ "metAugmentationDot")) d)) end
      = Some (smufl (S_ sign) ++ List.concat (repeat (smufl (S_ "metAugmentationDot")) d))) by (intros [|d]; [cbn [repeat List.concat]; rewrite app_nil_r; reflexivity|reflexivity]).
    rewrite <- G. clear G. cbn [signs In] in I.
    repeat (destruct I as [I|I]; [injection I as <- <-; solve [destruct (m_dots m); reflexivity|congruence]|]). destruct I. }
  set (h := smufl (S_ sign) ++ List.concat (repeat (smufl (S_ "metAugmentationDot")) (m_dots m))) in *.
  assert (Vh : visible h) by (apply visible_dots; [eapply VS; exact I|exact VD]).
  assert (K0 : (0 <= k)%Z). { revert P K2. clear. destruct n as [a b]. unfold Qle, Qlt, inject_Z, Qplus. cbn. rewrite ?Z.mul_1_r, ?Pos.mul_1_r. intros P H. assert (0 < (k + 1) * Z.pos b)%Z by lia. apply Z.mul_pos_cancel_r in H0; lia. }
  pose proof (show_Z_visible k K0) as Vk.
  set (r := h ++ S_ " = " ++ show_Z k).
  assert (Tr_r : trimmed r) by (apply trimmed_join; apply visible_trimmed; assumption).
  assert (Am_r : ~ In "&"%char r).
  { unfold r. rewrite !in_app_iff. intros [X|[X|X]]; [exact (visible_no_amp _ Vh X)|cbn in X; destruct X as [X|[X|[X|[]]]]; discriminate|exact (visible_no_amp _ Vk X)]. }
  set (words := if m_textImplicit m then [] else w).
  assert (MT : mixed_text smufl m = Some (words ++ S_ " ", Some r)) by (unfold mixed_text; rewrite Tx, NI, N, Hd, K; reflexivity).
  eexists. assert (W : write_tempo smufl show lay1 lay2 tail attr m = Some (Some
      (El (S_ "tempo") ((attr ++ stylisticAttributes (TextObj (opt_str (m_text m)) (m_place m) (m_style m))) ++ [(S_ "midi.bpm", show (n * m_ql m)%Q)])
          (indented lay1 (words ++ S_ " ")) [El (S_ "rend") [(S_ "fontfam", S_ "smufl")] r [] lay2] tail)))
    by (unfold write_tempo; rewrite NI, N, MT; reflexivity).
  destruct (number_read _ _ _ _ _ n _ pending NO St NI (or_introl N) W) as (m' & R & X & _).
  exists m'. split; [exact W|]. split; [exact R|]. rewrite X.
  match goal with |- context [text_of gn gm [] ?ee] => change (fst (text_of gn gm [] ee)) with (keep (indented lay1 (words ++ S_ " ")) ++ (([] ++ (keep r ++ []) ++ keep lay2) ++ [])) end.
  rewrite (keep_lay lay2 L2), (keep_trimmed r Tr_r), !app_nil_r. cbn [app].
  assert (Sh : forall x, shown smufl x sign (m_dots m) k = match x with Some w => w ++ S_ " " | None => [] end ++ r) by (intro x; unfold shown, r, h; rewrite <- !app_assoc; reflexivity).
  rewrite Sh. unfold words. destruct (m_textImplicit m).
  - change (indented lay1 ([] ++ S_ " ")) with lay1. rewrite (keep_lay lay1 L1). cbn [app]. rewrite HO by exact Am_r. rewrite strip_trimmed by exact Tr_r. reflexivity.
  - assert (Ind : indented lay1 (w ++ S_ " ") = w ++ S_ " ").
    { unfold indented. destruct Tr as (Tr & _). destruct w as [|c w']; [destruct Tr|]. cbn [app forallb]. rewrite Tr. reflexivity. }
    rewrite Ind. assert (Kp : keep (w ++ S_ " ") = w ++ S_ " ").
    { destruct Tr as (Tr & _). destruct w as [|c w']; [destruct Tr|]. cbn [app keep forallb]. rewrite Tr. rewrite andb_false_r. reflexivity. }
    rewrite Kp. rewrite HO. + rewrite <- app_assoc. rewrite strip_trimmed; [reflexivity|]. apply trimmed_join; assumption.
    + rewrite !in_app_iff. intros [[Y|Y]|Y]; [exact (Am Y)|cbn in Y; destruct Y as [Y|[]]; discriminate|exact (Am_r Y)].
Qed.
(** The words of a mark that only sounds at a number are shown alone, and read. *)
Theorem C152_words_alone : forall lay1 lay2 tail attr m n w pending, numbers_ok -> html_ok html -> stamped attr ->
  m_numberImplicit m = false -> m_number m = None -> m_sounding m = Some n -> m_text m = Some w -> m_textImplicit m = false -> trimmed w -> ~ In "&"%char w ->
  exists e m', write_tempo smufl show lay1 lay2 tail attr m = Some (Some e) /\ read pending (ETempo e) = Some ([], [m']) /\ m_text m' = Some w.
Proof.
  intros lay1 lay2 tail attr m n w pending NO HO St NI N Sn Tx TI Tr Am.
  eexists. assert (W : write_tempo smufl show lay1 lay2 tail attr m = Some (Some
      (El (S_ "tempo") ((attr ++ stylisticAttributes (TextObj (opt_str (m_text m)) (m_place m) (m_style m))) ++ [(S_ "midi.bpm", show (n * m_ql m)%Q)]) w [] tail)))
    by (unfold write_tempo, mixed_text; rewrite NI, N, Sn, Tx, TI; reflexivity).
  destruct (number_read _ _ _ _ _ n _ pending NO St NI (or_intror (conj N Sn)) W) as (m' & R & X & _).
  exists m'. split; [exact W|]. split; [exact R|]. rewrite X.
  match goal with |- context [text_of gn gm [] ?ee] => change (fst (text_of gn gm [] ee)) with (keep w ++ []) end.
  rewrite app_nil_r, (keep_trimmed w Tr), HO by exact Am. rewrite strip_trimmed by exact Tr. reflexivity.
Qed.
End Marks.
Print Assumptions C152_words_alone.
Print Assumptions C152_number_partial.
Print Assumptions C152_shown_partial.

(** Numbers of the examples are written as fractions; the signs are letters. *)
Definition show_ex (q : Q) : str := show_Z (Qnum q) ++ "/"%char :: show_N (Npos (Qden q)).
Definition float_ex (s : str) : option Q :=
  match split_char "/" s with
  | [a; b] => match py_int a, py_int b with Some n, Some (Zpos d) => Some (n # d)%Q | _, _ => None end
  | [a] => option_map inject_Z (py_int a)
  | _ => None
  end.
Definition smufl_ex (n : str) : str :=
  if str_eqb n (S_ "metNoteQuarterUp") then S_ "q" else if str_eqb n (S_ "metNoteHalfUp") then S_ "h" else if str_eqb n (S_ "metAugmentationDot") then S_ "." else S_ "x".
Definition read_mark_ex (pending : string) (e : xml) : option (str * list mmark) :=
  read_event (fun s => s) (fun _ => []) (fun _ => []) (fun s => s) fam_split just_set float_ex (S_ pending) (ETempo e).
Definition write_ex : mmark -> option (option xml) := write_tempo smufl_ex show_ex [] [] [] [(S_ "tstamp", S_ "1")].
Definition mark_ex (w : option string) (impl : bool) (n : option Q) (type : string) (dots : nat) (ql : Q) : mmark :=
  MMark (option_map S_ w) impl n false None (S_ type) dots ql (Some (S_ "above")) None.

Lemma no_slash s : forallb is_digit s = true -> char_in "/" s = false.
Proof.
  intro F. destruct (char_in "/" s) eqn:E; [|reflexivity]. exfalso. unfold char_in in E. apply existsb_exists in E. destruct E as (c & I & E). apply Ascii.eqb_eq in E. subst c.
  rewrite forallb_forall in F. specialize (F _ I). discriminate.
Qed.
Lemma numbers_ex : numbers_ok show_ex float_ex.
Proof.
  intros [n d]. unfold show_ex, float_ex. cbn [Qnum Qden]. split; [destruct (show_Z n); discriminate|].
  assert (S1 : char_in "/" (show_Z n) = false).
  { destruct n; cbn [show_Z]; [apply no_slash, show_N_digits|apply no_slash, show_N_digits|]. change (char_in "/" (show_N (N.pos p)) = false). apply no_slash, show_N_digits. }
  rewrite split_char_app by exact S1. assert (S2 : split_char "/" (show_N (N.pos d)) = [show_N (N.pos d)]).
  { apply split_char_no_sep. apply no_slash, show_N_digits. }
  rewrite S2, py_int_show. change (show_N (N.pos d)) with (show_Z (Z.pos d)). rewrite py_int_show. eexists. split; [reflexivity|apply Qeq_refl].
Qed.

Example C152_number_nonvacuous : exists e m', write_ex (mark_ex (Some "Allegro"%string) false (Some (60 # 1)%Q) "half" 1 (3 # 1)%Q) = Some (Some e)
  /\ read_mark_ex "" e = Some ([], [m']) /\ m_number m' = Some (180 # 1)%Q /\ m_text m' = Some (S_ "Allegro h. = 60").
Proof. do 2 eexists. repeat (split; [vm_compute; reflexivity|]). vm_compute; reflexivity. Qed.
Example C152_words_alone_nonvacuous : exists e m', write_ex (MMark (Some (S_ "Allegro")) false None false (Some (132 # 1)%Q) (S_ "quarter") 0 1%Q None None) = Some (Some e)
  /\ read_mark_ex "" e = Some ([], [m']) /\ m_text m' = Some (S_ "Allegro").
Proof. do 2 eexists. repeat (split; [vm_compute; reflexivity|]). vm_compute; reflexivity. Qed.
Example C152_hyps_nonvacuous : numbers_ok show_ex float_ex /\ html_ok (fun s => s) /\ visible_signs smufl_ex /\ stamped [(S_ "tstamp", S_ "1")].
Proof.
  split; [exact numbers_ex|]. split; [intros s _; reflexivity|]. split.
  - assert (V : forall n, visible (smufl_ex n)).
    { intro n. unfold smufl_ex. destruct (str_eqb n _); [|destruct (str_eqb n _); [|destruct (str_eqb n _)]]; (split; [discriminate|]); repeat constructor; discriminate. }
    split; intros; apply V.
  - split; [left; reflexivity|]. repeat split; intros [K|[]]; discriminate.
Qed.

(** *** Where it fails *)

(** A mark for a thirty-second note cannot be written: the name of its sign is wrong. *)
Theorem C152_thirty_second_refuted : exists m, m_type m = S_ "32nd" /\ m_number m = Some (60 # 1)%Q /\ m_text m = Some (S_ "Largo")
  /\ forall smufl show lay1 lay2 tail attr, write_tempo smufl show lay1 lay2 tail attr m = None.
Proof. exists (mark_ex (Some "Largo"%string) false (Some (60 # 1)%Q) "32nd" 0 (1 # 8)%Q). repeat (split; [reflexivity|]). intros. reflexivity. Qed.
Print Assumptions C152_thirty_second_refuted.

(** A mark that has words but no number, not even an implied one, is not written at all. *)
Theorem C152_words_only_refuted : exists m, m_text m = Some (S_ "Mit Humor") /\ m_number m = None /\ m_numberImplicit m = false
  /\ forall smufl show lay1 lay2 tail attr, write_tempo smufl show lay1 lay2 tail attr m = Some None.
Proof. exists (mark_ex (Some "Mit Humor"%string) false None "quarter" 0 1%Q). repeat (split; [reflexivity|]). intros. reflexivity. Qed.
Print Assumptions C152_words_only_refuted.

(** A number without words is not shown. *)
Theorem C152_number_only_refuted : exists m, m_text m = None /\ m_number m = Some (300 # 1)%Q /\ m_numberImplicit m = false
  /\ exists e m', write_ex m = Some (Some e) /\ read_mark_ex "" e = Some ([], [m']) /\ m_number m' = Some (300 # 1)%Q /\ m_text m' = Some [].
Proof. exists (mark_ex None false (Some (300 # 1)%Q) "quarter" 0 1%Q). repeat (split; [reflexivity|]). do 2 eexists. repeat (split; [vm_compute; reflexivity|]). vm_compute; reflexivity. Qed.
Print Assumptions C152_number_only_refuted.

(** Half a beat is lost: 45 dotted quarters become 67 quarters. *)
Theorem C152_fraction_refuted : exists m, m_number m = Some (45 # 1)%Q /\ m_ql m = (3 # 2)%Q
  /\ exists e m', write_ex m = Some (Some e) /\ read_mark_ex "" e = Some ([], [m']) /\ m_number m' = Some (67 # 1)%Q /\ m_ql m' = 1%Q.
Proof. exists (mark_ex (Some "Andante"%string) false (Some (45 # 1)%Q) "quarter" 1 (3 # 2)%Q). repeat (split; [reflexivity|]). do 2 eexists. repeat (split; [vm_compute; reflexivity|]). vm_compute; reflexivity. Qed.
Print Assumptions C152_fraction_refuted.

(** A mark that was read once and is written again has no number any more. *)
Theorem C152_again_refuted : exists m e m' e' m'', m_number m = Some (120 # 1)%Q
  /\ write_ex m = Some (Some e) /\ read_mark_ex "" e = Some ([], [m']) /\ m_number m' = Some (120 # 1)%Q
  /\ write_ex m' = Some (Some e') /\ read_mark_ex "" e' = Some ([], [m'']) /\ m_number m'' = None /\ m_text m'' = m_text m'.
Proof.
  exists (mark_ex (Some "Allegro"%string) false (Some (120 # 1)%Q) "quarter" 0 1%Q). do 4 eexists. repeat (split; [vm_compute; reflexivity|]). vm_compute; reflexivity.
Qed.
Print Assumptions C152_again_refuted.

(** The style of the words is not written with a number; all the text comes back in the
    font of the note sign, and bold. *)
Theorem C152_style_refuted : exists m e m', m_style m = Some (TStyle (Some (S_ "italic")) None None [S_ "Optima"] None None None None None false)
  /\ write_ex m = Some (Some e) /\ read_mark_ex "" e = Some ([], [m'])
  /\ m_style m' = Some (TStyle (Some (S_ "bold")) None None [S_ "smufl"] None None None None None false).
Proof.
  exists (MMark (Some (S_ "Allegro")) false (Some (120 # 1)%Q) false None (S_ "quarter") 0 1%Q None (Some (TStyle (Some (S_ "italic")) None None [S_ "Optima"] None None None None None false))).
  do 2 eexists. repeat (split; [vm_compute; reflexivity|]). vm_compute; reflexivity.
Qed.
Print Assumptions C152_style_refuted.

(** Notes without a sign of their own are shown as quarters. *)
Theorem C152_longa_refuted : exists m e m', m_type m = S_ "longa" /\ m_ql m = (16 # 1)%Q
  /\ write_ex m = Some (Some e) /\ read_mark_ex "" e = Some ([], [m']) /\ m_text m' = Some (S_ "Grave q = 10") /\ m_number m' = Some (160 # 1)%Q.
Proof. exists (mark_ex (Some "Grave"%string) false (Some (10 # 1)%Q) "longa" 0 (16 # 1)%Q). do 2 eexists. repeat (split; [vm_compute; reflexivity|]). vm_compute; reflexivity. Qed.
Print Assumptions C152_longa_refuted.

(** ** C153: the number of the score definition goes to the next tempo, and to it alone *)

Definition bpm_of (e : xml) : str := x_get (S_ "midi.bpm") (x_attrs e).
(** A tempo at a time stamp. *)
Definition timed (e : xml) : Prop :=
  In (S_ "tstamp") (map fst (x_attrs e)) /\ x_get (S_ "startid") (x_attrs e) = [] /\ x_get (S_ "type") (x_attrs e) <> S_ "fingering".
(** What says nothing about the tempo. *)
Definition silent (ev : event) : Prop :=
  match ev with EScoreDef d => bpm_of d = [] | ETempo e => ~ In (S_ "tstamp") (map fst (x_attrs e)) end.
(** The number for a tempo: its own, or that of a score definition with no other tempo
    between. *)
Inductive number_for : list event -> xml -> str -> Prop :=
| own pre e : bpm_of e <> [] -> number_for pre e (bpm_of e)
| from_def pre d mid e : bpm_of e = [] -> bpm_of d <> [] -> Forall silent mid -> number_for (pre ++ EScoreDef d :: mid) e (bpm_of d)
| after_tempo pre e' mid e : bpm_of e = [] -> timed e' -> Forall silent mid -> number_for (pre ++ ETempo e' :: mid) e []
| none_before mid e : bpm_of e = [] -> Forall silent mid -> number_for mid e [].

Section Events.
Context (html gn gm set_size : str -> str) (set_family : str -> list str) (set_justify : str -> option str) (float_of : str -> option Q).
Local Notation step := (read_event html gn gm set_size set_family set_justify float_of).
Local Notation reads := (read_events html gn gm set_size set_family set_justify float_of).

(** The number that waits after a list of events. *)
Fixpoint after (p : str) (l : list event) : str :=
  match l with [] => p | ev :: r => match step p ev with Some (p', _) => after p' r | None => p end end.
Lemma reads_app p a b ms : reads p (a ++ b) = Some ms ->
  exists x y, reads p a = Some x /\ reads (after p a) b = Some y /\ ms = x ++ y.
Proof.
  revert p ms. induction a as [|ev a IH]; intros p ms R; [exists [], ms; auto|].
  cbn [app read_events after] in R |- *. destruct (step p ev) as [[p' x]|]; [|discriminate].
  destruct (reads p' (a ++ b)) as [z|] eqn:E; [|discriminate]. injection R as <-. destruct (IH _ _ E) as (x' & y' & H1 & H2 & ->).
  exists (x ++ x'), y'. rewrite H1. split; [reflexivity|]. split; [exact H2|]. apply app_assoc.
Qed.
Lemma after_app p a b ms : reads p (a ++ b) = Some ms -> after p (a ++ b) = after (after p a) b.
Proof.
  revert p ms. induction a as [|ev a IH]; intros p ms R; [reflexivity|]. cbn [app read_events after] in R |- *.
  destruct (step p ev) as [[p' x]|]; [|discriminate]. destruct (reads p' (a ++ b)) as [z|] eqn:E; [|discriminate]. eapply IH. exact E.
Qed.
Lemma no_attr k (a : list (str * str)) : ~ In k (map fst a) -> assoc_str k a = None.
Proof. intro N. rewrite <- (app_nil_r a). rewrite assoc_app by exact N. reflexivity. Qed.
Lemma silent_step p ev : silent ev -> step p ev = Some (p, []).
Proof.
  destruct ev as [d|e]; cbn [silent read_event].
  - unfold bpm_of. intros ->. reflexivity.
  - intro N. unfold has_attr. rewrite no_attr by exact N. cbn [negb]. rewrite !orb_true_r. reflexivity.
Qed.
Lemma silent_after p l : Forall silent l -> after p l = p.
Proof. induction 1 as [|ev l S F IH]; [reflexivity|]. cbn [after]. rewrite (silent_step _ _ S). exact IH. Qed.
Lemma timed_step p e r : timed e -> step p (ETempo e) = Some r ->
  exists o, dirFromElement html gn gm set_size set_family set_justify e = Some o /\ r = ([], [mark_of float_of o (match bpm_of e with [] => p | s => s end)]).
Proof.
  intros (T & S & Y). cbn [read_event]. assert (P : pp_one html gn gm KTempo e = None) by (unfold pp_one; cbv zeta iota; rewrite S; reflexivity). rewrite P.
  unfold has_attr. destruct (assoc_app_in (S_ "tstamp") (x_attrs e) [] T) as (v & V). rewrite app_nil_r in V. rewrite V.
  destruct (str_eqb (x_get (S_ "type") (x_attrs e)) (S_ "fingering")) eqn:E; [apply str_eqb_eq in E; congruence|]. cbv [orb negb].
  destruct (dirFromElement _ _ _ _ _ _ e) as [o|]; [|discriminate]. intro R. injection R as <-. eauto.
Qed.

(** Each tempo at a time stamp gives one mark, with the number that is for it. *)
Theorem C153_number_partial : forall pre e post ms v, timed e -> number_for pre e v -> reads [] (pre ++ ETempo e :: post) = Some ms ->
  exists a m b o, ms = a ++ m :: b /\ reads [] pre = Some a
    /\ dirFromElement html gn gm set_size set_family set_justify e = Some o /\ m_text m = Some (o_text o)
    /\ (v = [] -> m_number m = None) /\ (float_of v = None -> m_number m = None)
    /\ (forall q, v <> [] -> float_of v = Some q -> (0 <= q)%Q -> exists z, m_number m = Some (inject_Z z) /\ (inject_Z z <= q)%Q /\ (q < inject_Z z + 1)%Q).
Proof.
  intros pre e post ms v T NF R. destruct (reads_app _ _ _ _ R) as (a & y & Ra & Ry & ->). cbn [read_events] in Ry.
  destruct (step (after [] pre) (ETempo e)) as [[p' x]|] eqn:E; [|discriminate]. destruct (reads p' post) as [b|]; [|discriminate]. injection Ry as <-.
  destruct (timed_step _ _ _ T E) as (o & D & X). injection X as _ ->.
  assert (V : match bpm_of e with [] => after [] pre | s => s end = v).
  { destruct NF as [pre e N|pre d mid e N ND F|pre e' mid e N T' F|mid e N F].
    - destruct (bpm_of e); [congruence|reflexivity].
    - rewrite N, (after_app _ _ _ _ Ra). cbn [after read_event]. fold (bpm_of d). rewrite silent_after by exact F. destruct (bpm_of d); [congruence|reflexivity].
    - rewrite N, (after_app _ _ _ _ Ra). destruct (reads_app _ _ _ _ Ra) as (x1 & x2 & _ & R2 & _). cbn [read_events after] in R2 |- *.
      destruct (step (after [] pre) (ETempo e')) as [[p2 z]|] eqn:E2; [|discriminate]. destruct (timed_step _ _ _ T' E2) as (o2 & _ & X). injection X as -> _. apply silent_after. exact F.
    - rewrite N. apply silent_after. exact F. }
  rewrite V. exists a, (mark_of float_of o v), b, o. split; [reflexivity|]. split; [exact Ra|]. split; [exact D|]. split; [reflexivity|].
  cbn [mark_of m_number]. unfold midi_bpm. split; [intros ->; reflexivity|]. split; [intro F; rewrite F; destruct v; reflexivity|].
  intros q NV F P. rewrite F. destruct v as [|c v]; [congruence|]. cbn [option_map]. eexists. split; [reflexivity|]. apply trunc_bounds. exact P.
Qed.
End Events.
Print Assumptions C153_number_partial.

Definition reads_ex := read_events (fun s => s) (fun _ => []) (fun _ => []) (fun s => s) fam_split just_set float_ex [].
Definition def_ex (bpm : string) : event := EScoreDef (El (S_ "scoreDef") [(S_ "midi.bpm", S_ bpm)] [] [] []).
Definition tempo_ex (attrs : list (string * string)) (t : string) : event := ETempo (El (S_ "tempo") (map (fun p => (S_ (fst p), S_ (snd p))) attrs) (S_ t) [] []).

Example C153_number_nonvacuous :
  let l := [def_ex "90"; tempo_ex [("tstamp", "1")] "Andante"; tempo_ex [("tstamp", "3"); ("midi.bpm", "120")] "Allegro"; tempo_ex [("tstamp", "1")] "Lento"]%string in
  option_map (map (fun m => (m_text m, m_number m))) (reads_ex l)
  = Some [(Some (S_ "Andante"), Some (90 # 1)%Q); (Some (S_ "Allegro"), Some (120 # 1)%Q); (Some (S_ "Lento"), None)]
  /\ number_for (firstn 1 l) (El (S_ "tempo") [(S_ "tstamp", S_ "1")] (S_ "Andante") [] []) (S_ "90")
  /\ timed (El (S_ "tempo") [(S_ "tstamp", S_ "1")] (S_ "Andante") [] []).
Proof.
  cbv zeta. split; [vm_compute; reflexivity|]. split.
  - change (number_for ([] ++ def_ex "90" :: []) (El (S_ "tempo") [(S_ "tstamp", S_ "1")] (S_ "Andante") [] []) (bpm_of (El (S_ "scoreDef") [(S_ "midi.bpm", S_ "90")] [] [] []))).
    apply from_def; [reflexivity|discriminate|constructor].
  - split; [left; reflexivity|]. split; [reflexivity|discriminate].
Qed.

(** *** Where it fails *)

(** The tempo of a score whose number is only in the score definition is lost. *)
Theorem C153_alone_refuted : exists d, bpm_of d = S_ "90" /\ reads_ex [EScoreDef d] = Some [].
Proof. exists (El (S_ "scoreDef") [(S_ "midi.bpm", S_ "90")] [] [] []). split; reflexivity. Qed.
Print Assumptions C153_alone_refuted.

(** A tempo that names a note gives no mark, though it has a number of its own; and the
    number of the score definition, which was meant for it, goes to the next tempo. *)
Theorem C153_by_id_refuted : exists adagio allegro m1 m2,
  adagio = tempo_ex [("startid", "#n1"); ("midi.bpm", "60")]%string "Adagio" /\ allegro = tempo_ex [("tstamp", "1")]%string "Allegro"
  /\ reads_ex [adagio] = Some [] /\ reads_ex [allegro] = Some [m1] /\ m_number m1 = None
  /\ reads_ex [def_ex "60"; adagio; allegro] = Some [m2] /\ m_text m2 = Some (S_ "Allegro") /\ m_number m2 = Some (60 # 1)%Q.
Proof. do 4 eexists. repeat (split; [vm_compute; reflexivity|]). vm_compute; reflexivity. Qed.
Print Assumptions C153_by_id_refuted.
