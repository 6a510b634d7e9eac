(** Properties of lyrics written to and read from Humdrum: C112. *)
From Coq Require Import List Ascii String Arith NArith ZArith Lia Bool Sorted.
From Verif Require Import PyStr PyStrProofs LayoutModel SignifierModel BarModel SignifierProofs LyricModel LyricProofs LyricProofs2.
Import ListNotations.

(** ** C112: lyrics survive export to Humdrum and import *)

(** The verses are those of the lyrics: one for each number that has a lyric with
    words (the last one of the number), in order of the numbers, with its words and
    its label. *)
Definition faithful (ls : list lyric) (vs : list verse) : Prop :=
  StronglySorted lt (map v_num vs)
  /\ (forall v, In v vs -> exists l, last_of (Z.of_nat (v_num v)) ls l /\ shown l v)
  /\ (forall n l, last_of n ls l -> ~ words_of (ly_raw l) [] -> exists v, In v vs /\ shown l v).

Definition note_ok (marks : list str) (ls : list lyric) : Prop :=
  Forall (fun l => (1 <= ly_num l <= 100)%Z /\ lyric_ok marks l) ls.

(** The lines the exporter writes for a note of a staff of one voice. *)
Definition lines_of (maxv : nat) (ls : list lyric) : list sline :=
  let w := addLyrics maxv ls in
  match w_labels w with Some fs => [SLabels (text_fields 0 fs)] | None => [] end
  ++ [SNotes [LNote] (text_fields 0 (w_verses w))].

Lemma last_of_In n ls l : last_of n ls l -> In l ls.
Proof. intros (a & b & -> & _). rewrite in_app_iff. right. left. reflexivity. Qed.
Lemma last_of_unique n ls l k : last_of n ls l -> last_of n ls k -> l = k.
Proof.
  intros (a & b & -> & N & F) (c & d & E & M & G). revert a E. induction c as [|x c IH]; intros a E.
  - destruct a as [|y a]; [injection E as -> _; reflexivity|]. injection E as E1 E2. subst y d. exfalso.
    rewrite Forall_forall in G. apply (G l); [rewrite in_app_iff; right; left; reflexivity|exact N].
  - destruct a as [|y a]; [|injection E as _ E; exact (IH a E)]. injection E as E1 E2. subst x b. exfalso.
    rewrite Forall_forall in F. apply (F k); [rewrite in_app_iff; right; left; reflexivity|exact M].
Qed.

Lemma ordered marks ls : note_ok marks ls ->
  exists vs, order [] ls = Some vs /\ slots_ok marks 0 vs
    /\ forall j l, nth_error vs j = Some (Some l) <-> last_of (Z.of_nat j + 1) ls l.
Proof.
  intro N. assert (R : Forall (fun l => (1 <= ly_num l <= 100)%Z) ls) by (revert N; apply Forall_impl; tauto).
  destruct (order_get ls [] R) as (vs & E & G). exists vs. split; [exact E|].
  assert (K : forall j l, nth_error vs j = Some (Some l) <-> last_of (Z.of_nat j + 1) ls l).
  { intros j l. specialize (G j). unfold vget in G. split; intro H.
    - rewrite H in G. destruct G as [(k & Q & L)|(_ & Q)]; [injection Q as <-; exact L|]. destruct j; discriminate.
    - destruct G as [(k & Q & L)|(F & _)].
      + destruct (nth_error vs j) as [o|]; [|discriminate]. subst o. rewrite (last_of_unique _ _ _ _ L H). reflexivity.
      + exfalso. rewrite Forall_forall in F. apply (F l (last_of_In _ _ _ H)). destruct H as (? & ? & _ & M & _). exact M. }
  split; [|exact K].
  assert (P : forall us i, (forall j l, nth_error us j = Some (Some l) -> last_of (Z.of_nat (i + j) + 1) ls l) -> slots_ok marks i us).
  { induction us as [|o us IH]; intros i H; [exact I|]. split.
    - destruct o as [l|]; [|exact I]. specialize (H 0 l eq_refl). unfold note_ok in N. rewrite Forall_forall in N.
      split; [exact (proj2 (N l (last_of_In _ _ _ H)))|]. destruct H as (? & ? & _ & M & _). lia.
    - apply IH. intros j l Q. specialize (H (S j) l Q). replace (S i + j) with (i + S j) by lia. exact H. }
  apply P. intros j l Q. apply K. exact Q.
Qed.

Section Note.
Context (html : str -> str) (re : str -> str -> option bool) (colors : list (str * str)) (maxv : nat).
Context (H_html : html_ok html) (H_re : re_ok re).

(** The labels before the note, then its verses. *)
Lemma note_read ls : note_ok (map fst colors) ls ->
  exists out, faithful ls out
    /\ convertVerses html re colors (match w_labels (addLyrics maxv ls) with Some fs => checkForVerseLabels (text_fields 0 fs) [] | None => [] end)
         0 (text_fields 0 (w_verses (addLyrics maxv ls))) = Some (out, []).
Proof.
  intro N. destruct (ordered _ ls N) as (vs & E & SL & K).
  unfold addLyrics. rewrite E. cbn [w_labels w_verses].
  destruct (read_verses html re colors H_html H_re (maxv - length (map (fun v : option str => match v with Some t => t | None => S_ "." end)
     (map Some (map verse_token vs)))) vs 0 SL) as (out & R & M).
  exists out. split.
  - split; [exact (matches_sorted _ _ _ M)|]. split.
    + intros v V. destruct (matches_from _ _ _ M v V) as (j & l & A & B & C). exists l. split; [|exact C].
      apply K in A. rewrite B. replace (Z.of_nat (S (0 + j))) with (Z.of_nat j + 1)%Z by lia. exact A.
    + intros n l L W.
      assert (P : (1 <= n)%Z).
      { unfold note_ok in N. rewrite Forall_forall in N. destruct (N l (last_of_In _ _ _ L)) as (B & _). destruct L as (? & ? & _ & Q & _). lia. }
      destruct (matches_to _ _ _ M (Z.to_nat (n - 1)) l) as (v & A & _ & C); [|exact W|eauto].
      apply K. replace (Z.of_nat (Z.to_nat (n - 1)) + 1)%Z with n by lia. exact L.
  - assert (V : side_fields (S_ ".") maxv (setVerses 0 (map verse_token vs) [])
                = map verse_token vs ++ repeat (S_ ".") (maxv - length (map (fun v : option str => match v with Some t => t | None => S_ "." end)
     (map Some (map verse_token vs))))).
    { pose proof (setVerses_all (map verse_token vs) []) as Q. cbn [length app] in Q. unfold str in *. rewrite Q. unfold side_fields. rewrite !map_length.
      f_equal. rewrite map_map, map_id. reflexivity. }
    rewrite V.
    assert (L : (match (if existsb (fun x => match x with Some _ => true | None => false end) (map verse_label vs)
                  then Some (side_fields (S_ "*") maxv (setLabels 0 (map verse_label vs) [])) else None) with
                | Some fs => checkForVerseLabels (text_fields 0 fs) [] | None => [] end) = labs 0 (map verse_label vs)).
    { destruct (existsb _ (map verse_label vs)) eqn:X.
      - destruct (setLabels_pad (map verse_label vs) 0 [] ltac:(cbn; lia)) as (L1 & L2). cbn [pad app repeat length plus] in L1, L2.
        assert (F : Forall is_label (pad (length (map verse_label vs)) (setLabels 0 (map verse_label vs) []))).
        { unfold str in *. rewrite L2. cbn [app pad]. apply Forall_map, Forall_forall. intros [[n r [[|c t]|]]|] _; exact I || reflexivity. }
        rewrite check_fields; [|unfold pad in F; apply Forall_app in F; tauto].
        assert (Q : labs 0 (pad (length (map verse_label vs)) (setLabels 0 (map verse_label vs) [])) = labs 0 (setLabels 0 (map verse_label vs) []))
          by (unfold pad; rewrite labs_app, labs_none, app_nil_r; reflexivity).
        rewrite <- Q. unfold str in *. rewrite L2. reflexivity.
      - generalize 0. clear - X. induction vs as [|o vs IH]; intro i; [reflexivity|]. cbn [map existsb] in X.
        apply orb_false_iff in X. destruct X as (X1 & X2). cbn [map labs]. destruct (verse_label o); [discriminate|]. exact (IH X2 _). }
    unfold str in *. rewrite L. exact R.
Qed.

Lemma layer_read notes : Forall (note_ok (map fst colors)) notes ->
  exists out, read_layer html re colors 0 [] (flat_map (lines_of maxv) notes) = Some (out, []) /\ Forall2 faithful notes out.
Proof.
  intro F. induction F as [|ls notes N F IH]; [exists []; split; [reflexivity|constructor]|].
  destruct IH as (out & E & FF). destruct (note_read ls N) as (vs & FA & R). exists (vs :: out). split; [|constructor; assumption].
  cbn [flat_map]. unfold lines_of at 1. destruct (w_labels (addLyrics maxv ls)) as [fs|]; cbn [app read_layer nth_error note_below firstn existsb];
    unfold str in *; rewrite R, E; reflexivity.
Qed.
End Note.

(** A staff of one voice: the lyrics of all its notes are read back as they were. *)
Theorem C112_lyrics_partial : forall html re colors maxv measures, html_ok html -> re_ok re ->
  Forall (Forall (note_ok (map fst colors))) measures ->
  exists out, read_staff html re colors [] (map (fun m => (1, flat_map (lines_of maxv) m)) measures) = Some out
    /\ Forall2 (fun m layers => exists notes, layers = [notes] /\ Forall2 faithful m notes) measures out.
Proof.
  intros html re colors maxv ms HH HR F. induction F as [|m ms M F IH]; [exists []; split; [reflexivity|constructor]|].
  destruct IH as (out & E & FF). destruct (layer_read html re colors maxv HH HR m M) as (o & R & G).
  exists ([o] :: out). split; [|constructor; [exists o; auto|exact FF]].
  cbn [map read_staff read_layers]. unfold str in *. rewrite R, E. reflexivity.
Qed.
Print Assumptions C112_lyrics_partial.

(** Python's search for a pattern of ordinary characters and full stops. *)
Fixpoint fits_at (p s : str) : bool :=
  match p, s with
  | [], _ => true
  | c :: p', d :: s' => (Ascii.eqb c "."%char || Ascii.eqb c d) && fits_at p' s'
  | _, [] => false
  end.
Fixpoint simple_search (p s : str) : bool := fits_at p s || match s with [] => false | _ :: r => simple_search p r end.
Lemma fits_at_spec : forall p s, fits_at p s = true <-> exists t z, s = t ++ z /\ fits p t.
Proof.
  induction p as [|c p IH]; intro s.
  - split; [intros _; exists [], s; split; [reflexivity|constructor]|reflexivity].
  - destruct s as [|d s]; cbn [fits_at].
    + split; [discriminate|]. intros (t & z & E & F). inversion F; subst. discriminate.
    + rewrite andb_true_iff, orb_true_iff, !Ascii.eqb_eq, IH. split.
      * intros (C & t & z & -> & F). exists (d :: t), z. split; [reflexivity|constructor; assumption].
      * intros (t & z & E & F). inversion F as [|? y ? t' C F' E1 E2]; subst. injection E as -> ->. split; [exact C|]. exists t', z. auto.
Qed.
Lemma simple_search_ok : re_ok (fun p s => Some (simple_search p s)).
Proof.
  intros p s _ _. exists (simple_search p s). split; [reflexivity|]. induction s as [|d s IH]; cbn [simple_search]; rewrite orb_true_iff, fits_at_spec.
  - split.
    + intros [(t & z & E & F)|K]; [exists [], t, z; auto|discriminate].
    + intros (a & t & z & E & F). symmetry in E. apply app_eq_nil in E. destruct E as (-> & E). left. exists t, z. auto.
  - rewrite IH. split.
    + intros [(t & z & E & F)|(a & t & z & E & F)]; [exists [], t, z; auto|]. exists (d :: a), t, z. rewrite E. auto.
    + intros (a & t & z & E & F). destruct a as [|x a]; [left; exists t, z; auto|]. injection E as -> ->. right. exists a, t, z. auto.
Qed.

Ltac word_end := apply wd_end; repeat (first [constructor; [reflexivity|]|constructor]).
Lemma words_py s : words_of s (py_words s).
Proof.
  assert (K : forall s cur, no_space cur -> exists g, (cur = [] -> g = s) /\ (cur <> [] -> words_of (rev cur ++ s) (words_acc cur s))
            /\ (cur = [] -> words_of s (words_acc [] s))).
  { clear s. induction s as [|c s IH]; intros cur C.
    - exists []. split; [auto|]. split; [|intros _; apply wd_end; constructor]. intro N. cbn [words_acc]. destruct cur as [|x cur]; [contradiction|].
      change (rev (x :: cur) ++ []) with ([] ++ rev (x :: cur) ++ []).
      apply wd_word; [constructor| |apply Forall_rev; exact C|left; reflexivity|apply wd_end; constructor].
      intro K. apply (f_equal (@rev ascii)) in K. rewrite rev_involutive in K. discriminate.
    - destruct (is_space c) eqn:SC.
      + destruct (IH [] ltac:(constructor)) as (g & _ & _ & W). specialize (W eq_refl).
        assert (W' : words_of (c :: s) (words_acc [] s)).
        { clear - W SC. inversion W as [h Hh E1 E2|h w r ws Hh A B D W2 E1 E2]; subst.
          - apply wd_end. constructor; assumption.
          - change (c :: h ++ w ++ r) with ((c :: h) ++ w ++ r). apply wd_word; try assumption. constructor; assumption. }
        exists (c :: s). split; [auto|]. split.
        * intro N. cbn [words_acc]. rewrite SC. destruct cur as [|x cur]; [contradiction|].
          change (rev (x :: cur) ++ c :: s) with ([] ++ rev (x :: cur) ++ c :: s). apply wd_word; [constructor| |apply Forall_rev; exact C| |exact W'].
          -- intro K. apply (f_equal (@rev ascii)) in K. rewrite rev_involutive in K. discriminate.
          -- right. exists c, s. auto.
        * intros _. cbn [words_acc]. rewrite SC. exact W'.
      + exists (c :: s). destruct (IH (c :: cur)) as (g & _ & W & _); [constructor; assumption|]. specialize (W ltac:(discriminate)).
        split; [auto|]. split.
        * intros _. cbn [words_acc]. rewrite SC. cbn [rev] in W. rewrite <- app_assoc in W. exact W.
        * intros ->. cbn [words_acc]. rewrite SC. exact W. }
  destruct (K s [] ltac:(constructor)) as (_ & _ & _ & W). exact (W eq_refl).
Qed.

(** Two measures: a note with verses 2 and 1 (labels and an elision with an
    apostrophe), one without lyrics, and one with verse 3 only. *)
Example C112_nonvacuous :
  let notes := [[mkLyr 2 (S_ " me  'l  a-") (Some (S_ "2.")); mkLyr 1 (S_ "Ky-") (Some (S_ "1. All"))]; []] in
  let m2 := [[mkLyr 3 (S_ "-son.") None]] in
  Forall (Forall (note_ok [S_ "@"])) [notes; m2]
  /\ read_staff (fun s => s) (fun p s => Some (simple_search p s)) [(S_ "@", S_ "red")] []
       (map (fun m => (1, flat_map (lines_of 3) m)) [notes; m2])
     = Some [[[[mkVerse 1 (Some (S_ "1. All")) None false [S_ "Ky-"]; mkVerse 2 (Some (S_ "2.")) None false [S_ "me 'l"; S_ "a-"]]; []]];
             [[[mkVerse 3 None None false [S_ "-son."]]]]].
Proof.
  cbv zeta. split; [|vm_compute; reflexivity].
  assert (T : forall t, (match t with c :: _ => negb (Ascii.eqb c "!"%char) && negb (Ascii.eqb c "*"%char) | [] => true end
              && negb (str_eqb t (S_ ".")) && negb (char_in "&"%char t) && negb (contains (S_ "\n") t) && negb (contains (S_ "@") t)) = true -> text_ok [S_ "@"] t).
  { intros t H. apply andb_true_iff in H. destruct H as (H & H5). apply andb_true_iff in H. destruct H as (H & H4).
    apply andb_true_iff in H. destruct H as (H & H3). apply andb_true_iff in H. destruct H as (H1 & H2).
    apply negb_true_iff in H2, H3, H4, H5. split; [|split; [|split; [|split]]].
    - intros c r ->. apply andb_true_iff in H1. destruct H1 as (A & B). apply negb_true_iff in A, B. split; apply Ascii.eqb_neq; assumption.
    - apply str_eqb_neq. exact H2.
    - intro K. unfold char_in in H3. assert (Q : existsb (Ascii.eqb "&"%char) t = true) by (apply existsb_exists; exists "&"%char; split; [exact K|reflexivity]). congruence.
    - apply contains_false. exact H4.
    - constructor; [apply contains_false; exact H5|constructor]. }
  assert (O : forall n r i, ((1 <=? n) && (n <=? 100))%Z = true -> lyric_ok [S_ "@"] (mkLyr n r i) -> (1 <= ly_num (mkLyr n r i) <= 100)%Z /\ lyric_ok [S_ "@"] (mkLyr n r i)).
  { intros n r i H L. split; [cbn; lia|exact L]. }
  unfold note_ok. repeat first [apply Forall_nil|apply Forall_cons]; apply O; try reflexivity.
  - exists (py_words (S_ " me  'l  a-")). split; [apply words_py|]. split; [intros _; apply T; reflexivity|]. cbn [ly_id].
    split; [|vm_compute; discriminate]. split; [reflexivity|]. exists "2"%char. split; [left; reflexivity|split; discriminate].
  - exists (py_words (S_ "Ky-")). split; [apply words_py|]. split; [intros _; apply T; reflexivity|]. cbn [ly_id].
    split; [|vm_compute; discriminate]. split; [reflexivity|]. exists "1"%char. split; [left; reflexivity|split; discriminate].
  - exists (py_words (S_ "-son.")). split; [apply words_py|]. split; [intros _; apply T; reflexivity|]. exact I.
Qed.

(** ** Several voices *)

(** What layer [j] gets of the lines of a measure without labels: the lyrics of
    a line go to the first layer that has a note on it. *)
Inductive carries (j : nat) : list (list lkind * list lyric) -> list (list verse) -> Prop :=
| ca_nil : carries j [] []
| ca_none : forall ks ls r out, nth_error ks j <> Some LNote -> carries j r out -> carries j ((ks, ls) :: r) out
| ca_first : forall ks ls r vs out, nth_error ks j = Some LNote -> (forall i, i < j -> nth_error ks i <> Some LNote) ->
    faithful ls vs -> carries j r out -> carries j ((ks, ls) :: r) (vs :: out)
| ca_other : forall ks ls r i out, nth_error ks j = Some LNote -> i < j -> nth_error ks i = Some LNote ->
    carries j r out -> carries j ((ks, ls) :: r) ([] :: out).

Lemma note_below_spec j ks : note_below j ks = true <-> exists i, i < j /\ nth_error ks i = Some LNote.
Proof.
  unfold note_below. rewrite existsb_exists. split.
  - intros (k & I & K). destruct k; try discriminate. apply In_nth_error in I. destruct I as (i & I). exists i.
    assert (L : i < length (firstn j ks)) by (apply nth_error_Some; congruence). rewrite firstn_length in L.
    split; [lia|]. revert I. clear - L. revert j ks L. induction i as [|i IH]; intros j ks L; destruct j, ks; cbn in *; try lia; auto.
    intro H. apply (IH j ks); [lia|exact H].
  - intros (i & L & I). exists LNote. split; [|reflexivity]. revert j ks L I. induction i as [|i IH]; intros j ks L I; destruct j, ks; cbn in *; try lia; try discriminate.
    + left. congruence.
    + right. apply (IH j); [lia|exact I].
Qed.

Definition line_of (maxv : nat) (x : list lkind * list lyric) : sline := SNotes (fst x) (text_fields 0 (w_verses (addLyrics maxv (snd x)))).

Theorem C112_voices_partial : forall html re colors maxv lines n, html_ok html -> re_ok re ->
  Forall (fun x => note_ok (map fst colors) (snd x) /\ Forall (fun l => ly_id l = None) (snd x)) lines ->
  exists outs, read_layers html re colors n 0 [] (map (line_of maxv) lines) = Some (outs, [])
    /\ length outs = n /\ forall j out, nth_error outs j = Some out -> carries j lines out.
Proof.
  intros html re colors maxv lines n HH HR F.
  assert (NL : forall ls, Forall (fun l => ly_id l = None) ls -> w_labels (addLyrics maxv ls) = None).
  { intros ls L. unfold addLyrics. destruct (order [] ls) as [vs|] eqn:E; [|reflexivity]. cbn [w_labels].
    assert (K : forall ls us vs, Forall (fun l => ly_id l = None) ls -> Forall (fun o => verse_label o = None) us -> order us ls = Some vs -> Forall (fun o => verse_label o = None) vs).
    { clear. induction ls as [|l ls IH]; intros us vs L U E; [injection E as <-; exact U|]. cbn [order] in E. destruct (100 <? ly_num l)%Z; [discriminate|].
      inversion L as [|? ? L1 L2]; subst. apply (IH _ _ L2) in E; [exact E|].
      assert (V : verse_label (Some l) = None) by (destruct l as [? ? i]; cbn in L1; subst; reflexivity).
      assert (SA : forall i w, Forall (fun o => verse_label o = None) w -> Forall (fun o => verse_label o = None) (set_at i (Some l) w)).
      { clear - V. intros i w W. revert i. induction W as [|x w X W IH]; intros [|i]; cbn [set_at]; constructor; auto. }
      unfold order_step. destruct (_ =? _)%Z; [apply Forall_app; split; [exact U|constructor; [exact V|constructor]]|].
      destruct (_ && _); [apply SA, U|]. destruct (_ <? _)%Z; [|exact U]. apply SA. apply Forall_app. split; [exact U|].
      apply Forall_forall. intros x X. apply repeat_spec in X. subst. reflexivity. }
    pose proof (K ls [] vs L ltac:(constructor) E) as V. replace (existsb _ _) with false; [reflexivity|]. symmetry. clear - V.
    induction V as [|o vs O V IH]; [reflexivity|]. cbn [map existsb]. rewrite O. exact IH. }
  assert (LY : forall j, exists out, read_layer html re colors j [] (map (line_of maxv) lines) = Some (out, []) /\ carries j lines out).
  { intro j. induction F as [|(ks, ls) lines (N & L) F IH]; [exists []; split; [reflexivity|constructor]|].
    destruct IH as (out & E & C). cbn [fst snd] in *. cbn [map read_layer line_of fst snd]. 
    destruct (nth_error ks j) as [[| |]|] eqn:J.
    2,3,4: exists out; split; [exact E|apply ca_none; [congruence|exact C]].
    destruct (note_below j ks) eqn:B.
    - apply note_below_spec in B. destruct B as (i & I1 & I2). exists ([] :: out). unfold str in *. rewrite E. split; [reflexivity|]. eapply ca_other; eauto.
    - destruct (note_read html re colors maxv HH HR ls N) as (vs & FA & R). rewrite (NL ls L) in R. exists (vs :: out). unfold str in *. rewrite R, E.
      split; [reflexivity|]. apply ca_first; [exact J| |exact FA|exact C]. intros i I1 I2.
      assert (Q : note_below j ks = true) by (apply note_below_spec; eauto). congruence. }
  assert (G : forall m k, exists outs, read_layers html re colors m k [] (map (line_of maxv) lines) = Some (outs, [])
      /\ length outs = m /\ forall j out, nth_error outs j = Some out -> carries (k + j) lines out).
  { induction m as [|m IH]; intro k; [exists []; split; [reflexivity|]; split; [reflexivity|]; intros [|j] out K; discriminate|].
    destruct (LY k) as (o & E & C). destruct (IH (S k)) as (outs & R & LN & H). exists (o :: outs). cbn [read_layers]. unfold str in *. rewrite E, R.
    split; [reflexivity|]. split; [cbn; lia|]. intros [|j] out K.
    - injection K as <-. rewrite Nat.add_0_r. exact C.
    - replace (k + S j) with (S k + j) by lia. apply H. exact K. }
  exact (G n 0).
Qed.
Print Assumptions C112_voices_partial.

Example C112_voices_nonvacuous :
  read_layers (fun s => s) (fun p s => Some (simple_search p s)) [] 2 0 []
    (map (line_of 1) [([LNote; LNote], [mkLyr 1 (S_ "Al-") None]); ([LRest; LNote], [mkLyr 1 (S_ "-le-") None])])
  = Some ([[[mkVerse 1 None None false [S_ "Al-"]]]; [[]; [mkVerse 1 None None false [S_ "-le-"]]]], []).
Proof. vm_compute. reflexivity. Qed.

(** ** Where it fails *)

(** A text that begins with an asterisk comes back with a backslash before it; a
    lone full stop is lost; so are all lyrics of a note one of whose verses has a
    number over 100. *)
Theorem C112_text_refuted : forall html re, html_ok html ->
  (exists vs, read_staff html re [] [] [(1, lines_of 1 [mkLyr 1 (S_ "*Chorus") None])] = Some [[[vs]]]
     /\ vs = [mkVerse 1 None None false [S_ "\*Chorus"]] /\ ~ faithful [mkLyr 1 (S_ "*Chorus") None] vs)
  /\ (exists vs, read_staff html re [] [] [(1, lines_of 1 [mkLyr 1 (S_ ".") None])] = Some [[[vs]]]
     /\ vs = [] /\ ~ faithful [mkLyr 1 (S_ ".") None] vs)
  /\ (exists vs, read_staff html re [] [] [(1, lines_of 2 [mkLyr 1 (S_ "a") None; mkLyr 101 (S_ "b") None])] = Some [[[vs]]]
     /\ vs = [] /\ ~ faithful [mkLyr 1 (S_ "a") None; mkLyr 101 (S_ "b") None] vs).
Proof.
  intros html re HH. split; [|split].
  - eexists. split; [|split; [reflexivity|]].
    + assert (K : html (S_ "\*Chorus") = S_ "\*Chorus") by (apply HH; vm_compute; intuition discriminate).
      vm_compute in K. vm_compute. rewrite K. reflexivity.
    + intros (_ & H & _). destruct (H _ (or_introl eq_refl)) as (l & L & _ & _ & _ & _ & ws & W & _ & P).
      apply last_of_In in L. destruct L as [<-|[]]. apply words_of_py in W. vm_compute in W. subst ws.
      apply parts_join in P. vm_compute in P. discriminate.
  - eexists. split; [vm_compute; reflexivity|]. split; [reflexivity|]. intros (_ & _ & H).
    destruct (H 1%Z (mkLyr 1 (S_ ".") None)) as (v & [] & _).
    + exists [], []. split; [reflexivity|]. split; [reflexivity|constructor].
    + intro W. apply words_of_py in W. discriminate.
  - eexists. split; [vm_compute; reflexivity|]. split; [reflexivity|]. intros (_ & _ & H).
    destruct (H 1%Z (mkLyr 1 (S_ "a") None)) as (v & [] & _).
    + exists [], [mkLyr 101 (S_ "b") None]. split; [reflexivity|]. split; [reflexivity|]. constructor; [discriminate|constructor].
    + intro W. apply words_of_py in W. discriminate.
Qed.
Print Assumptions C112_text_refuted.

(** The label `d` gets a full stop; the label `(` (no regular expression) makes the
    import fail. *)
Theorem C112_label_refuted : forall html re, html_ok html -> re_ok re -> (forall s, re (S_ "(") s = None) ->
  read_staff html re [] [] [(1, lines_of 1 [mkLyr 1 (S_ "la") (Some (S_ "d"))])]
    = Some [[[[mkVerse 1 (Some (S_ "d.")) None false [S_ "la"]]]]]
  /\ read_staff html re [] [] [(1, lines_of 1 [mkLyr 1 (S_ "la") (Some (S_ "("))])] = None.
Proof.
  intros html re HH HR HP.
  assert (K : html (S_ "la") = S_ "la") by (apply HH; vm_compute; intuition discriminate). vm_compute in K. split.
  - destruct (HR (S_ "d") (S_ "^\d+$") eq_refl) as (b & E & B); [vm_compute; intuition discriminate|].
    assert (b = true) by (apply B; exists (S_ "^\"), (S_ "d"), (S_ "+$"); split; [reflexivity|]; constructor; [right; reflexivity|constructor]).
    subst b. vm_compute in E. vm_compute. rewrite E, K. reflexivity.
  - pose proof (HP (S_ "^\d+$")) as E. vm_compute in E. vm_compute. rewrite E. reflexivity.
Qed.
Print Assumptions C112_label_refuted.

(** With a second voice in the measure, the label of a verse is also put on the
    first syllable of the next measure; a label on a lyric without words is put
    on the next lyric of the verse. *)
Theorem C112_stale_label_refuted : forall html re, html_ok html -> re_ok re ->
  read_staff html re [] []
    [(2, [SLabels (text_fields 0 [S_ "*v:1."]); SNotes [LNote; LNote] (text_fields 0 [S_ "la"])]);
     (1, [SNotes [LNote] (text_fields 0 [S_ "le"])])]
  = Some [[[[mkVerse 1 (Some (S_ "1.")) None false [S_ "la"]]]; [[]]]; [[[mkVerse 1 (Some (S_ "1.")) None false [S_ "le"]]]]]
  /\ read_staff html re [] [] [(1, flat_map (lines_of 1) [[mkLyr 1 [] (Some (S_ "1."))]; [mkLyr 1 (S_ "le") None]])]
  = Some [[[[]; [mkVerse 1 (Some (S_ "1.")) None false [S_ "le"]]]]].
Proof.
  intros html re HH HR.
  assert (K1 : html (S_ "la") = S_ "la") by (apply HH; vm_compute; intuition discriminate).
  assert (K2 : html (S_ "le") = S_ "le") by (apply HH; vm_compute; intuition discriminate).
  assert (L : getVerseLabelText re (S_ "*v:" ++ S_ "1.") = Some (S_ "1.")).
  { apply label_text; [exact HR|]. split; [reflexivity|]. exists "1"%char. split; [left; reflexivity|split; discriminate]. }
  vm_compute in K1, K2, L.
  assert (E : re (S_ "1.") (S_ "^\d+$") = Some false).
  { destruct (HR (S_ "1.") (S_ "^\d+$") eq_refl) as (b & E & B); [vm_compute; intuition discriminate|]. rewrite E. destruct b; [|reflexivity].
    exfalso. destruct (proj1 B eq_refl) as (a & t & z & Q & F). inversion F as [|? y ? ? [C|C] ? ]; subst; [discriminate|].
    assert (I : In "1"%char (S_ "^\d+$")) by (rewrite Q, !in_app_iff; right; left; left; reflexivity). vm_compute in I. intuition discriminate. }
  vm_compute in E. split; vm_compute; repeat (rewrite ?E, ?K1, ?K2; cbv beta iota zeta); reflexivity.
Qed.
Print Assumptions C112_stale_label_refuted.

(** A **vvdata** field is meant to be several verses, one per word: only the first
    is kept, and the verses after it are numbered as if it were the only one. *)
Theorem C112_vvdata_refuted : forall html re,
  convertVerses html re [] [] 0 [mkField 0 KVVdata (S_ "la le"); mkField 1 KVdata (S_ "li")]
  = Some ([mkVerse 1 None None true [S_ "la"]; mkVerse 2 None None true [S_ "li"]], []).
Proof. intros. vm_compute. reflexivity. Qed.
Print Assumptions C112_vvdata_refuted.

(** A syllable that is nothing but a mark of the file makes the import fail. *)
Theorem C112_mark_refuted : forall html re,
  convertVerses html re [(S_ "@", S_ "red")] [] 0 [mkField 0 KText (S_ "@")] = None.
Proof. intros. vm_compute. reflexivity. Qed.
Print Assumptions C112_mark_refuted.
