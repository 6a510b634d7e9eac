(** Lemmas about lyrics. *)
From Coq Require Import List Ascii String Arith NArith ZArith Lia Bool Sorted.
From Verif Require Import PyStr PyStrProofs LayoutModel SignifierModel BarModel SignifierProofs LyricModel.
Import ListNotations.

(** ** Words *)

Definition spaces (g : str) : Prop := Forall (fun c => is_space c = true) g.
Definition no_space (w : str) : Prop := Forall (fun c => is_space c = false) w.

(** [ws] are the words of [s]: what stands between its white space. *)
Inductive words_of : str -> list str -> Prop :=
| wd_end : forall g, spaces g -> words_of g []
| wd_word : forall g w s ws, spaces g -> w <> [] -> no_space w ->
    (s = [] \/ exists c r, s = c :: r /\ is_space c = true) -> words_of s ws -> words_of (g ++ w ++ s) (w :: ws).

Lemma words_spaces g : spaces g -> forall s, words_acc [] (g ++ s) = words_acc [] s.
Proof. intro H. induction H as [|c g C G IH]; intro s; [reflexivity|]. cbn [app words_acc]. rewrite C. apply IH. Qed.
Lemma words_word w : no_space w -> forall cur s, words_acc cur (w ++ s) = words_acc (rev w ++ cur) s.
Proof.
  intro H. induction H as [|c w C W IH]; intros cur s; [reflexivity|]. cbn [app words_acc rev]. rewrite C, IH, <- app_assoc. reflexivity.
Qed.
Lemma words_of_py s ws : words_of s ws -> py_words s = ws.
Proof.
  unfold py_words. intro H. induction H as [g G|g w s ws G NE W B H IH].
  - rewrite <- (app_nil_r g), words_spaces by exact G. reflexivity.
  - rewrite words_spaces, words_word, app_nil_r by assumption.
    assert (R : rev w <> []) by (intro K; apply (f_equal (@rev ascii)) in K; rewrite rev_involutive in K; contradiction).
    rewrite <- (rev_involutive w) at 2. destruct (rev w) as [|x y]; [contradiction|].
    destruct B as [->|(c & r & -> & C)].
    + cbn in IH. subst ws. reflexivity.
    + cbn [words_acc] in *. rewrite C in *. rewrite IH. reflexivity.
Qed.
Lemma words_good s ws : words_of s ws -> Forall (fun w => w <> [] /\ no_space w) ws.
Proof. intro H. induction H; constructor; auto. Qed.

(** ** Elisions *)

Definition apos (w : str) : Prop := exists r, w = "'"%char :: r.

(** The parts of a syllable: its words, those with an apostrophe before them
    staying with the word before. *)
Definition parts_of (ws ps : list str) : Prop :=
  exists gs, concat gs = ws /\ ps = map (join (S_ " ")) gs
    /\ Forall (fun g => g <> [] /\ Forall apos (tl g)) gs
    /\ Forall (fun g => ~ apos (hd [] g)) (tl gs).

Lemma elide_word w : no_space w -> forall cur s, s <> [] -> elide cur (w ++ s) = elide (rev w ++ cur) s.
Proof.
  intro H. induction H as [|c w C W IH]; intros cur s N; [reflexivity|]. cbn [app rev]. rewrite <- app_assoc. cbn [app].
  rewrite <- IH by exact N. cbn [elide]. assert (E : w ++ s <> []) by (destruct w; [exact N|discriminate]).
  destruct (w ++ s) as [|d r]; [contradiction|].
  assert (E1 : Ascii.eqb c " "%char = false) by (apply Ascii.eqb_neq; intros ->; discriminate C).
  assert (E2 : Ascii.eqb c nbsp = false) by (apply Ascii.eqb_neq; intros ->; discriminate C).
  rewrite E1, E2. reflexivity.
Qed.
Lemma elide_last w : no_space w -> forall cur, w <> [] -> elide cur w = [rev cur ++ w].
Proof.
  intros H. induction H as [|c w C W IH]; intros cur N; [contradiction|]. destruct w as [|d w].
  - cbn [elide rev]. reflexivity.
  - cbn [elide].
    assert (E1 : Ascii.eqb c " "%char = false) by (apply Ascii.eqb_neq; intros ->; discriminate C).
    assert (E2 : Ascii.eqb c nbsp = false) by (apply Ascii.eqb_neq; intros ->; discriminate C).
    rewrite E1, E2. cbn [orb andb]. specialize (IH (c :: cur) ltac:(discriminate)). cbn [elide] in IH. rewrite IH.
    cbn [rev]. rewrite <- app_assoc. reflexivity.
Qed.
Lemma elide_blank d q cur : elide cur (" "%char :: d :: q)
  = if Ascii.eqb d "'"%char then elide (" "%char :: cur) (d :: q) else rev cur :: elide [] (d :: q).
Proof. cbn [elide]. destruct (Ascii.eqb d "'"); reflexivity. Qed.
Lemma join_cons2 (a b : str) l : join (S_ " ") (a :: b :: l) = a ++ " "%char :: join (S_ " ") (b :: l).
Proof. reflexivity. Qed.
Lemma join_nonnil (a : str) l : a <> [] -> join (S_ " ") (a :: l) <> [].
Proof. intro N. destruct l; [exact N|]. rewrite join_cons2. destruct a; [contradiction|discriminate]. Qed.

(** Reading goes on in a part which began with [rev cur]. *)
Lemma elide_join : forall ws cur, ws <> [] -> Forall (fun w => w <> [] /\ no_space w) ws ->
  exists g gs, g ++ concat gs = ws /\ g <> [] /\ Forall apos (tl g)
    /\ elide cur (join (S_ " ") ws) = (rev cur ++ join (S_ " ") g) :: map (join (S_ " ")) gs
    /\ Forall (fun g => g <> [] /\ Forall apos (tl g)) gs /\ Forall (fun g => ~ apos (hd [] g)) gs.
Proof.
  induction ws as [|w ws IH]; intros cur N F; [contradiction|]. inversion F as [|? ? (NE & W) F']; subst.
  destruct ws as [|w2 ws].
  - exists [w], []. cbn [app concat map tl join]. split; [reflexivity|]. split; [discriminate|]. split; [constructor|].
    split; [apply elide_last; assumption|]. split; constructor.
  - rewrite join_cons2, elide_word; [|exact W|discriminate].
    inversion F' as [|? ? (NE2 & W2) F2]; subst.
    pose proof (join_nonnil w2 ws NE2) as NJ.
    assert (H0 : exists d q, join (S_ " ") (w2 :: ws) = d :: q /\ exists y, w2 = d :: y).
    { destruct w2 as [|d y]; [contradiction|]. destruct ws; [exists d, y|exists d; eexists; rewrite join_cons2; cbn [app]]; split; eauto. }
    destruct H0 as (d & q & EJ & y & EW). unfold str in *.
    rewrite EJ, elide_blank.
    destruct (Ascii.eqb d "'") eqn:D.
    + rewrite <- EJ. destruct (IH (" "%char :: rev w ++ cur) ltac:(discriminate) F') as (g & gs & E & NG & A & EL & G1 & G2).
      exists (w :: g), gs. cbn [app]. split; [rewrite E; reflexivity|]. split; [discriminate|].
      destruct g as [|g1 g]; [contradiction|]. injection E as E1 E2. subst g1.
      split; [constructor; [exists y; apply Ascii.eqb_eq in D; subst; reflexivity|exact A]|].
      split; [|split; assumption]. rewrite EL. f_equal. rewrite join_cons2. cbn [rev]. rewrite rev_app_distr, rev_involutive.
      rewrite <- !app_assoc. reflexivity.
    + rewrite <- EJ. destruct (IH [] ltac:(discriminate) F') as (g & gs & E & NG & A & EL & G1 & G2).
      exists [w], (g :: gs). cbn [app concat map tl]. split; [rewrite E; reflexivity|]. split; [discriminate|]. split; [constructor|].
      split; [rewrite EL, rev_app_distr, rev_involutive; reflexivity|]. split; [constructor; auto|]. constructor; [|exact G2].
      destruct g as [|g1 g]; [contradiction|]. injection E as E1 E2. subst g1. cbn [hd]. intros (r & K). rewrite EW in K. injection K as K _.
      subst d. discriminate D.
Qed.
Lemma parts_spec ws : ws <> [] -> Forall (fun w => w <> [] /\ no_space w) ws ->
  exists ps, parts (join (S_ " ") ws) = Some ps /\ parts_of ws ps.
Proof.
  intros N F. destruct ws as [|w ws]; [contradiction|]. inversion F as [|? ? (NE & W) F']; subst.
  destruct w as [|c w]; [contradiction|].
  assert (E : exists r, join (S_ " ") ((c :: w) :: ws) = c :: r).
  { destruct ws; [eexists; reflexivity|]. rewrite join_cons2. eexists; reflexivity. }
  destruct E as (r & E). rewrite E. unfold parts. eexists. split; [reflexivity|].
  destruct r as [|d r].
  - (* a word of one letter *)
    destruct ws; [|rewrite join_cons2 in E; destruct w; discriminate]. cbn [join] in E. injection E as ->.
    cbn. exists [[[c]]]. cbn. repeat split; repeat constructor; discriminate.
  - destruct (elide_join ((c :: w) :: ws) [] ltac:(discriminate) F) as (g & gs & EQ & NG & A & EL & G1 & G2).
    exists (g :: gs). cbn [concat map tl]. split; [exact EQ|]. split; [|split; [constructor; auto|exact G2]].
    unfold str in *. rewrite E in EL. cbn [rev app] in EL. refine (eq_trans _ EL).
    inversion W as [|? ? C W']; subst.
    assert (E1 : Ascii.eqb c " "%char = false) by (apply Ascii.eqb_neq; intros ->; discriminate C).
    assert (E2 : Ascii.eqb c nbsp = false) by (apply Ascii.eqb_neq; intros ->; discriminate C).
    change (elide [] (c :: d :: r)) with (if (Ascii.eqb c " "%char || Ascii.eqb c nbsp) && negb (Ascii.eqb d "'"%char)
      then rev [] :: elide [] (d :: r) else elide [c] (d :: r)).
    rewrite E1, E2. reflexivity.
Qed.

(** ** Order of the verses *)

Lemma set_at_len {A} (x : A) : forall l i, length (set_at i x l) = length l.
Proof. induction l; intros [|i]; cbn; auto. Qed.
Lemma set_at_nth {A} (x : A) : forall l i j, nth_error (set_at i x l) j = if (i =? j) && (i <? length l) then Some x else nth_error l j.
Proof.
  induction l as [|y l IH]; intros i j.
  - cbn [length]. replace (i <? 0) with false by (symmetry; apply Nat.ltb_ge; lia). rewrite andb_false_r. destruct i; reflexivity.
  - destruct i, j; cbn [set_at nth_error]; try reflexivity. rewrite IH. reflexivity.
Qed.
Lemma nth_repeat {A} (x : A) n i : nth_error (repeat x n) i = if i <? n then Some x else None.
Proof. revert i. induction n as [|n IH]; intros [|i]; cbn [repeat nth_error]; [reflexivity..|]. rewrite IH. reflexivity. Qed.

(** Column [j] after [order_step]. *)
Definition vget (vs : list (option lyric)) (j : nat) : option lyric := match nth_error vs j with Some o => o | None => None end.
Lemma order_step_get vs l j : (1 <= ly_num l)%Z ->
  vget (order_step vs l) j = if (Z.of_nat j + 1 =? ly_num l)%Z then Some l else vget vs j.
Proof.
  intro P. unfold order_step, vget. destruct (Z.eqb_spec (ly_num l) (Z.of_nat (length vs) + 1)) as [E|E].
  - destruct (Z.eqb_spec (Z.of_nat j + 1) (ly_num l)) as [J|J].
    + rewrite nth_error_app2 by lia. replace (j - length vs) with 0 by lia. reflexivity.
    + destruct (lt_dec j (length vs)); [rewrite nth_error_app1 by lia; reflexivity|]. rewrite nth_error_app2 by lia.
      destruct (j - length vs) as [|k] eqn:K; [lia|]. cbn. replace (nth_error vs j) with (@None (option lyric)) by (symmetry; apply nth_error_None; lia).
      destruct k; reflexivity.
  - destruct (Z.ltb_spec 0 (ly_num l)); [|lia]. cbn [andb]. destruct (Z.ltb_spec (ly_num l) (Z.of_nat (length vs))) as [L|L].
    + rewrite set_at_nth. destruct (Z.eqb_spec (Z.of_nat j + 1) (ly_num l)) as [J|J].
      * replace (Z.to_nat (ly_num l - 1) =? j) with true by (symmetry; apply Nat.eqb_eq; lia).
        replace (Z.to_nat (ly_num l - 1) <? length vs) with true by (symmetry; apply Nat.ltb_lt; lia). reflexivity.
      * replace (Z.to_nat (ly_num l - 1) =? j) with false by (symmetry; apply Nat.eqb_neq; lia). reflexivity.
    + rewrite set_at_nth, app_length, repeat_length. destruct (Z.eqb_spec (Z.of_nat j + 1) (ly_num l)) as [J|J].
      * replace (Z.to_nat (ly_num l - 1) =? j) with true by (symmetry; apply Nat.eqb_eq; lia).
        replace (Z.to_nat (ly_num l - 1) <? length vs + (Z.to_nat (ly_num l) - length vs)) with true by (symmetry; apply Nat.ltb_lt; lia). reflexivity.
      * replace (Z.to_nat (ly_num l - 1) =? j) with false by (symmetry; apply Nat.eqb_neq; lia). cbn [andb].
        destruct (lt_dec j (length vs)); [rewrite nth_error_app1 by lia; reflexivity|]. rewrite nth_error_app2, nth_repeat by lia.
        replace (nth_error vs j) with (@None (option lyric)) by (symmetry; apply nth_error_None; lia). destruct (_ <? _); reflexivity.
Qed.

(** The last lyric of the number. *)
Definition last_of (n : Z) (ls : list lyric) (l : lyric) : Prop :=
  exists a b, ls = a ++ l :: b /\ ly_num l = n /\ Forall (fun x => ly_num x <> n) b.

Lemma order_get : forall ls vs, Forall (fun l => (1 <= ly_num l <= 100)%Z) ls ->
  exists out, order vs ls = Some out
    /\ forall j, (exists l, vget out j = Some l /\ last_of (Z.of_nat j + 1) ls l)
                 \/ (Forall (fun l => ly_num l <> (Z.of_nat j + 1)%Z) ls /\ vget out j = vget vs j).
Proof.
  induction ls as [|l ls IH]; intros vs F.
  - exists vs. split; [reflexivity|]. intro j. right. split; [constructor|reflexivity].
  - inversion F as [|? ? L F']; subst. cbn [order]. destruct (Z.ltb_spec 100 (ly_num l)); [lia|].
    destruct (IH (order_step vs l) F') as (out & E & HG). exists out. split; [exact E|]. intro j.
    destruct (HG j) as [(k & K & a & b & -> & Q & R)|(N & G)].
    + left. exists k. split; [exact K|]. exists (l :: a), b. split; [reflexivity|]. auto.
    + rewrite order_step_get in G by lia. destruct (Z.eqb_spec (Z.of_nat j + 1) (ly_num l)) as [J|J].
      * left. exists l. split; [exact G|]. exists [], ls. split; [reflexivity|]. split; [lia|exact N].
      * right. split; [constructor; [lia|exact N]|exact G].
Qed.

(** ** Columns *)

Definition pad (n : nat) (a : list (option str)) : list (option str) := a ++ repeat None (n - length a).
Lemma set_at_last {A} (x y : A) a : forall n, set_at (length a + n) x (a ++ repeat y (S n)) = a ++ repeat y n ++ [x].
Proof.
  induction a as [|z a IH]; intro n.
  - cbn [app length plus]. induction n; [reflexivity|]. cbn [repeat set_at app] in *. f_equal. exact IHn.
  - cbn [app length plus set_at]. rewrite IH. reflexivity.
Qed.
Lemma setVerse_end i t a : length a <= i -> setVerse i t a = pad i a ++ [Some t].
Proof.
  intro L. unfold setVerse, pad. destruct (Nat.eqb_spec i (length a)) as [->|N].
  - rewrite Nat.sub_diag. cbn. rewrite app_nil_r. reflexivity.
  - destruct (Nat.ltb_spec i (length a)); [lia|]. replace (S i - length a) with (S (i - length a)) by lia.
    pose proof (set_at_last (Some t) None a (i - length a)) as K. replace (length a + (i - length a)) with i in K by lia.
    rewrite K, app_assoc. reflexivity.
Qed.
Lemma pad_len i a : length a <= i -> length (pad i a) = i.
Proof. intro L. unfold pad. rewrite app_length, repeat_length. lia. Qed.
Lemma pad_id a : pad (length a) a = a.
Proof. unfold pad. rewrite Nat.sub_diag. apply app_nil_r. Qed.
Lemma setVerses_all : forall toks a, setVerses (length a) toks a = a ++ map Some toks.
Proof.
  induction toks as [|t toks IH]; intro a; cbn [setVerses map]; [rewrite app_nil_r; reflexivity|].
  rewrite setVerse_end, pad_id by lia. specialize (IH (a ++ [Some t])). rewrite app_length in IH. cbn in IH.
  replace (length a + 1) with (S (length a)) in IH by lia. rewrite IH, <- app_assoc. reflexivity.
Qed.
Lemma setLabels_pad : forall toks i a, length a <= i ->
  length (setLabels i toks a) <= i + length toks /\ pad (i + length toks) (setLabels i toks a) = pad i a ++ toks.
Proof.
  induction toks as [|t toks IH]; intros i a L; cbn [setLabels length].
  - rewrite Nat.add_0_r, app_nil_r. auto.
  - replace (i + S (length toks)) with (S i + length toks) by lia. destruct t as [t|].
    + rewrite setVerse_end by exact L.
      assert (K : length (pad i a ++ [Some t]) = S i) by (rewrite app_length, pad_len by exact L; cbn; lia).
      destruct (IH (S i) (pad i a ++ [Some t]) ltac:(lia)) as (I1 & I2). split; [exact I1|].
      rewrite I2. rewrite <- K, pad_id, <- app_assoc. reflexivity.
    + destruct (IH (S i) a ltac:(lia)) as (I1 & I2). split; [exact I1|]. rewrite I2. unfold pad.
      replace (S i - length a) with ((i - length a) + 1) by lia. rewrite repeat_app, <- !app_assoc. reflexivity.
Qed.

(** The fields of the staff's text spines, in order. *)
Fixpoint text_fields (i : nat) (ts : list str) : list field :=
  match ts with [] => [] | t :: r => mkField i KText t :: text_fields (S i) r end.
Lemma text_fields_app : forall a b i, text_fields i (a ++ b) = text_fields i a ++ text_fields (i + length a) b.
Proof. induction a as [|x a IH]; intros b i; cbn; [rewrite Nat.add_0_r; reflexivity|]. rewrite IH. f_equal. f_equal. f_equal. lia. Qed.

Fixpoint labs (i : nat) (l : list (option str)) : list (nat * str) :=
  match l with [] => [] | Some t :: r => (i, t) :: labs (S i) r | None :: r => labs (S i) r end.
Lemma labs_app : forall a b i, labs i (a ++ b) = labs i a ++ labs (i + length a) b.
Proof.
  induction a as [|x a IH]; intros b i; cbn; [rewrite Nat.add_0_r; reflexivity|].
  replace (i + S (length a)) with (S i + length a) by lia. destruct x; rewrite IH; reflexivity.
Qed.
Lemma labs_none n i : labs i (repeat None n) = [].
Proof. revert i. induction n; intro i; cbn; auto. Qed.

Definition is_label (o : option str) : Prop := match o with Some t => starts_with (S_ "*v:") t = true | None => True end.
Lemma check_fields a k : forall i, Forall is_label a ->
  checkForVerseLabels (text_fields i (side_fields (S_ "*") k a)) [] = labs i a.
Proof.
  unfold checkForVerseLabels, side_fields. generalize (k - length a). intros n i F. rewrite text_fields_app, filter_app, map_app, !app_nil_l.
  assert (Z : forall j, filter (fun f => match f_kind f with KText => starts_with (S_ "*v:") (f_text f) | _ => false end)
              (text_fields j (repeat (S_ "*") n)) = []) by (induction n; intro j; cbn; auto).
  rewrite Z, app_nil_r. revert i. induction F as [|o a O F IH]; intro i; [reflexivity|]. cbn [map text_fields filter f_kind f_text labs].
  destruct o as [t|]; cbn [is_label] in O.
  - rewrite O. cbn [map f_spine f_text]. rewrite IH. reflexivity.
  - cbn. apply IH.
Qed.
