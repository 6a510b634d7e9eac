(** What notes look like in MEI: C133 (stems, heads, colours, sizes, grace notes), C134
    (articulations). *)
From Coq Require Import List ZArith Ascii String Bool Lia.
From Verif Require Import PyStr PyStrProofs ClefModel MeiOrnModel MeiOrnProofs PropsMeiOrn MeiLookModel.
Import ListNotations.
Local Open Scope bool_scope.
Local Open Scope list_scope.

(** ** Statements *)

(** Whether a grace note is accented: an appoggiatura is; one that takes its time from
    the previous note is not, one that takes it from the following note is; otherwise
    one without a slash is. *)
Inductive accented : grace -> bool -> Prop :=
| acc_appogg p f s : accented (Grace true p f s) true
| acc_prev f s : accented (Grace false true f s) false
| acc_foll s : accented (Grace false false true s) true
| acc_plain : accented (Grace false false false (Some false)) true
| acc_slashed : accented (Grace false false false (Some true)) false
| acc_unsaid : accented (Grace false false false None) false.
Definition same_grace (g g' : option grace) : Prop :=
  match g, g' with None, None => True | Some g, Some g' => exists b, accented g b /\ accented g' b | _, _ => False end.

Definition same_artic (a a' : artic) : Prop := ar_name a = ar_name a' /\ looks_same (ar_look a) (ar_look a').
Definition same_note (n n' : lnote) : Prop :=
  q_stem n = q_stem n' /\ q_head n = q_head n' /\ q_style n = q_style n' /\ Forall2 same_artic (q_artics n) (q_artics n') /\ same_grace (q_grace n) (q_grace n').
Definition same_chord (c c' : lchord) : Prop :=
  h_stem c = h_stem c' /\ h_style c = h_style c' /\ Forall2 same_artic (h_artics c) (h_artics c') /\ same_grace (h_grace c) (h_grace c')
  /\ Forall2 same_note (h_notes c) (h_notes c').
Definition same_obj (o o' : lobj) : Prop :=
  match o, o' with
  | LN n, LN n' => same_note n n'
  | LC c, LC c' => same_chord c c'
  | LR s, LR s' => s_hide s = s_hide s' /\ (s_hide s = false -> s = s')
  | _, _ => False
  end.

Definition mei_artics : list str :=
  [S_ "accent"; S_ "staccato"; S_ "tenuto"; S_ "staccatissimo"; S_ "spiccato"; S_ "down bow"; S_ "up bow"; S_ "harmonic"; S_ "snap pizzicato";
   S_ "strong accent"; S_ "doit"; S_ "plop"; S_ "falloff"; S_ "stopped"; S_ "open string"; S_ "double tongue"; S_ "triple tongue"; S_ "organ toe"; S_ "organ heel"].
Definition mei_heads : list str :=
  [S_ "normal"; S_ "cross"; S_ "diamond"; S_ "triangle"; S_ "rectangle"; S_ "slash"; S_ "square"; S_ "x"].

Definition plain_artic (a : artic) : Prop := In (ar_name a) mei_artics /\ ordinary (ar_look a).
Definition plain_note (n : lnote) : Prop := q_stem n <> StemDouble /\ In (q_head n) mei_heads /\ Forall plain_artic (q_artics n).
Definition plain_obj (o : lobj) : Prop :=
  match o with
  | LN n => plain_note n
  | LC c => Forall plain_artic (h_artics c) /\ Forall (fun n => plain_note n /\ q_grace n = None) (h_notes c)
            /\ (h_stem c = StemAny \/ (h_stem c = StemUp \/ h_stem c = StemDown) /\ Forall (fun n => q_stem n = h_stem c) (h_notes c))
  | LP _ => False
  | LR _ => True
  end.

(** ** Attributes *)

Lemma assoc_app {A} (k : str) (a b : list (str * A)) : assoc_str k (a ++ b) = match assoc_str k a with Some v => Some v | None => assoc_str k b end.
Proof. induction a as [|[x v] a IH]; [reflexivity|]. cbn [app assoc_str]. destruct (str_eqb _ _); [reflexivity|exact IH]. Qed.

Ltac other := repeat match goal with H : ?k <> ?x |- context[str_eqb ?x ?k] => replace (str_eqb x k) with false by (symmetry; apply str_eqb_neq; congruence)
                               | H : ?k <> ?x |- context[str_eqb ?k ?x] => replace (str_eqb k x) with false by (symmetry; apply str_eqb_neq; congruence) end.
Lemma grace_no k g : k <> S_ "grace" -> assoc_str k (grace_attrs g) = None.
Proof. intros H. unfold grace_attrs. destruct g; [|reflexivity]. cbn [assoc_str]. other. reflexivity. Qed.
Lemma stem_no k s : k <> S_ "stem.visible" -> k <> S_ "stem.dir" -> assoc_str k (stem_attrs s) = None.
Proof. intros H1 H2. destruct s; cbn [stem_attrs assoc_str]; other; reflexivity. Qed.
Lemma head_no k h : k <> S_ "head.shape" -> assoc_str k (head_attrs h) = None.
Proof. intros H. unfold head_attrs. destruct (assoc_str h head_table); [|reflexivity]. cbn [assoc_str]. other. reflexivity. Qed.
Lemma style_no k s : k <> S_ "visible" -> k <> S_ "color" -> k <> S_ "cue" -> assoc_str k (style_attrs s) = None.
Proof.
  intros H1 H2 H3. unfold style_attrs, attr_of. rewrite !assoc_app. destruct (s_hide s), (s_color s), (s_cue s); cbn [assoc_str]; other; reflexivity.
Qed.
Lemma style_visible s : assoc_str (S_ "visible") (style_attrs s) = if s_hide s then Some (S_ "false") else None.
Proof. unfold style_attrs, attr_of. destruct (s_hide s), (s_color s), (s_cue s); reflexivity. Qed.
Lemma style_color s : assoc_str (S_ "color") (style_attrs s) = match s_color s with [] => None | c => Some c end.
Proof. unfold style_attrs, attr_of. destruct (s_hide s), (s_color s), (s_cue s); reflexivity. Qed.
Lemma style_cue s : assoc_str (S_ "cue") (style_attrs s) = if s_cue s then Some (S_ "true") else None.
Proof. unfold style_attrs, attr_of. destruct (s_hide s), (s_color s), (s_cue s); reflexivity. Qed.

Ltac no := first [rewrite grace_no by differs | rewrite stem_no by differs | rewrite head_no by differs | rewrite style_no by differs].

Lemma style_round t l s c : (forall k, k = S_ "visible" \/ k = S_ "color" \/ k = S_ "cue" -> assoc_str k l = None) ->
  styleFromMei (Node t (l ++ style_attrs s) c) = s.
Proof.
  intros H. unfold styleFromMei, is_attr, n_attr. rewrite !assoc_app, !H by tauto. rewrite style_visible, style_color, style_cue.
  destruct s as [[] [|x y] []]; reflexivity.
Qed.

Lemma grace_round t g l c : assoc_str (S_ "grace") l = None -> same_grace g (graceFromMei (Node t (grace_attrs g ++ l) c)).
Proof.
  intros H. unfold graceFromMei, n_attr. rewrite assoc_app, H. destruct g as [[a p f s]|]; [|exact Logic.I].
  destruct a; [exists true; split; constructor|]. destruct p; [exists false; split; constructor|]. destruct f; [exists true; split; constructor|].
  destruct s as [[]|]; [exists false|exists true|exists false]; split; constructor.
Qed.

(** ** Articulations *)

Definition artic_node (v : str) (k : look) : node := Node (S_ "artic") ((S_ "artic", v) :: stylistic k) [].

Lemma artic_read v k p n : placed k p -> k_hide k = false -> k_color k = [] -> In (n, v) artic_table ->
  articFromElement (artic_node v k) = [Artic n (Look (Some p) [] None false [])].
Proof.
  intros P Hh Hc I. unfold articFromElement, artic_node, n_attr.
  change (assoc_str (S_ "artic") ((S_ "artic", v) :: stylistic k)) with (Some v). cbn match.
  assert (E : match assoc_str (S_ "place") ((S_ "artic", v) :: stylistic k) with Some p => p | None => [] end = match p with Some p => p | None => [] end).
  { change (assoc_str (S_ "place") ((S_ "artic", v) :: stylistic k)) with (assoc_str (S_ "place") (stylistic k)). unfold stylistic.
    rewrite (placed_mei k p P), Hh, Hc. cbn [attr_of app]. destruct p as [p|]; [|reflexivity]. destruct (placed_text k p P) as [-> | ->]; reflexivity. }
  rewrite E. assert (Q : p = None \/ p = Some (S_ "above") \/ p = Some (S_ "below")).
  { destruct p as [p|]; [|left; reflexivity]. destruct (placed_text k p P) as [-> | ->]; tauto. }
  clear - I Q. unfold artic_table in I. cbn [In] in I.
  repeat match goal with H : _ \/ _ |- _ => destruct H end; try contradiction; subst;
    try match goal with H : (_, _) = (_, _) |- _ => injection H as <- <- end; reflexivity.
Qed.

Lemma table_names n : In n mei_artics -> exists v, assoc_str n artic_table = Some v /\ In (n, v) artic_table.
Proof.
  unfold mei_artics. cbn [In]. intros H. repeat (destruct H as [<- | H]; [eexists; split; [vm_compute; reflexivity|unfold artic_table; repeat (first [left; reflexivity | right])]|]). destruct H.
Qed.

Lemma artics_round l : Forall plain_artic l -> 
  Forall2 same_artic l (flat_map (fun k => if str_eqb (n_tag k) (S_ "artic") then articFromElement k else []) (articsToMei l)).
Proof.
  induction l as [|a l IH]; intros H; [constructor|]. pose proof (Forall_inv H) as [N (P & Hh & Hc)]. destruct P as [p P].
  destruct (table_names _ N) as (v & E & I). unfold articsToMei. cbn [flat_map]. rewrite E. cbn [app flat_map n_tag].
  rewrite str_eqb_refl. fold (articsToMei l). fold (artic_node v (ar_look a)). rewrite (artic_read v _ p _ P Hh Hc I). cbn [app]. constructor; [|apply IH, (Forall_inv_tail H)].
  split; [reflexivity|]. split; [|split; [exact Hh|exact Hc]]. exists p. split; [exact P|]. destruct p as [p|].
  - apply placed_said; [reflexivity|]. destruct (placed_text _ p P) as [-> | ->]; [left; reflexivity|right; split; [reflexivity|differs]].
  - apply placed_unsaid; [reflexivity|left; reflexivity].
Qed.

Lemma artic_tags l : forall k, In k (articsToMei l) -> n_tag k = S_ "artic".
Proof.
  intros k I. unfold articsToMei in I. apply in_flat_map in I as (a & _ & I). destruct (assoc_str (ar_name a) artic_table); [|destruct I].
  destruct I as [<- | []]. reflexivity.
Qed.
Lemma flat_nil {A B} (f : A -> list B) l : (forall x, In x l -> f x = []) -> flat_map f l = [].
Proof. induction l as [|x l IH]; intros H; [reflexivity|]. cbn [flat_map]. rewrite H by (left; reflexivity). apply IH. intros y I. apply H. right. exact I. Qed.

(** ** Notes and chords *)

Lemma note_round valid zero d n : plain_note n -> (d = false -> q_grace n = None) -> same_note n (noteFromMei valid zero (noteToMei d n)).
Proof.
  intros (S & H & A) G. unfold noteFromMei, noteToMei. set (ga := if d then grace_attrs (q_grace n) else []).
  assert (Gn : forall k, k <> S_ "grace" -> assoc_str k ga = None) by (intros k K; unfold ga; destruct d; [apply grace_no, K|reflexivity]).
  unfold same_note. cbn [q_stem q_head q_style q_artics q_grace]. split; [|split; [|split; [|split]]].
  - unfold stemFromMei, is_attr, n_attr. rewrite !assoc_app, !Gn by differs. rewrite !head_no by differs. rewrite !style_no by differs.
    destruct (q_stem n); try reflexivity. contradiction.
  - unfold headFromMei, n_attr. rewrite !assoc_app, Gn, stem_no by differs. rewrite style_no by differs. clear - H.
    unfold mei_heads in H. cbn [In] in H. repeat (destruct H as [<- | H]; [reflexivity|]). destruct H.
  - rewrite !app_assoc, <- (app_assoc ga). symmetry. apply style_round. intros k K. rewrite !assoc_app.
    assert (K' : k <> S_ "grace" /\ k <> S_ "stem.visible" /\ k <> S_ "stem.dir" /\ k <> S_ "head.shape") by (destruct K as [-> | [-> | ->]]; repeat split; differs).
    destruct K' as (K1 & K2 & K3 & K4). rewrite Gn, stem_no, head_no by assumption. reflexivity.
  - unfold articsOf, n_attr. cbn [n_kids]. rewrite !assoc_app, Gn, stem_no, head_no, style_no by differs. rewrite app_nil_r. apply artics_round, A.
  - destruct d; unfold ga.
    + apply grace_round.
      rewrite !assoc_app, stem_no, head_no, style_no by differs. reflexivity.
    + rewrite G by reflexivity. unfold graceFromMei, n_attr. cbn [app]. rewrite !assoc_app, stem_no, head_no, style_no by differs. exact Logic.I.
Qed.

Lemma notes_read valid zero l : flat_map (fun k => if str_eqb (n_tag k) (S_ "note") then [noteFromMei valid zero k] else []) (map (noteToMei false) l)
  = map (fun n => noteFromMei valid zero (noteToMei false n)) l.
Proof. induction l as [|n l IH]; [reflexivity|]. cbn [map flat_map]. rewrite IH. reflexivity. Qed.

Lemma chord_round valid zero c : plain_obj (LC c) -> same_chord c (chordFromMei valid zero (chordToMei c)).
Proof.
  intros (A & N & St). unfold chordFromMei, chordToMei.
  set (at_ := grace_attrs (h_grace c) ++ stem_attrs (h_stem c) ++ style_attrs (h_style c)). set (kids := articsToMei (h_artics c) ++ map (noteToMei false) (h_notes c)).
  assert (Sy : styleFromMei (Node (S_ "chord") at_ kids) = h_style c).
  { unfold at_. rewrite app_assoc. apply style_round. intros k K. rewrite assoc_app, grace_no, stem_no; [reflexivity| | |]; destruct K as [-> | [-> | ->]]; differs. }
  assert (Ar : Forall2 same_artic (h_artics c) (articsOf (Node (S_ "chord") at_ kids))).
  { unfold articsOf, n_attr, at_. cbn [n_kids]. rewrite !assoc_app, grace_no, stem_no, style_no by differs. rewrite app_nil_r. unfold kids. rewrite flat_map_app.
    rewrite (flat_nil _ (map (noteToMei false) (h_notes c))) by (intros k I; apply in_map_iff in I as (n & <- & _); reflexivity). rewrite app_nil_r. apply artics_round, A. }
  assert (Gr : same_grace (h_grace c) (graceFromMei (Node (S_ "chord") at_ kids))).
  { unfold at_. apply grace_round.
    rewrite assoc_app, stem_no, style_no by differs. reflexivity. }
  assert (No : flat_map (fun k => if str_eqb (n_tag k) (S_ "note") then [noteFromMei valid zero k] else []) kids = map (fun n => noteFromMei valid zero (noteToMei false n)) (h_notes c)).
  { unfold kids. rewrite flat_map_app, flat_nil; [apply notes_read|]. intros k I. rewrite (artic_tags _ k I). reflexivity. }
  assert (Sm : Forall2 same_note (h_notes c) (map (fun n => noteFromMei valid zero (noteToMei false n)) (h_notes c))).
  { clear - N. induction (h_notes c) as [|n l IH]; constructor; [|apply IH, (Forall_inv_tail N)]. destruct (Forall_inv N) as [P G]. apply note_round; [exact P|intros _; exact G]. }
  assert (Sd : n_attr (Node (S_ "chord") at_ kids) "stem.dir" = match h_stem c with StemUp => Some (S_ "up") | StemDown => Some (S_ "down") | _ => None end).
  { unfold n_attr, at_. rewrite !assoc_app, grace_no, style_no by differs. destruct (h_stem c); reflexivity. }
  cbn [n_kids] in *. rewrite Sd, No. destruct St as [St | [St Ns]].
  - rewrite St in *. unfold same_chord. cbn [h_stem h_style h_artics h_grace h_notes]. rewrite Sy. repeat split; assumption.
  - assert (E : (match h_stem c with StemUp => Some (S_ "up") | StemDown => Some (S_ "down") | _ => None end) = Some (if match h_stem c with StemUp => true | _ => false end then S_ "up" else S_ "down"))
      by (destruct St as [-> | ->]; reflexivity).
    rewrite E. cbn zeta.
    assert (D : stemDirFromAttr (if match h_stem c with StemUp => true | _ => false end then S_ "up" else S_ "down") = h_stem c) by (destruct St as [-> | ->]; reflexivity).
    rewrite D. unfold same_chord. cbn [h_stem h_style h_artics h_grace h_notes]. rewrite Sy. split; [reflexivity|]. split; [reflexivity|]. split; [exact Ar|]. split; [exact Gr|].
    rewrite map_map. clear - Sm Ns. revert Sm Ns. generalize (h_stem c). intros s Sm Ns. induction (h_notes c) as [|n l IH]; constructor.
    + inversion Sm; subst. destruct H2 as (_ & B & C & D & F). split; [exact (Forall_inv Ns)|]. repeat split; assumption.
    + apply IH; [inversion Sm; subst; assumption|exact (Forall_inv_tail Ns)].
Qed.

(** ** C133, C134 *)

(** C133.  The notes, chords and rests of a voice come back one by one, and look as they
    did.  Missing: chords without stems, other note heads, percussion chords, and what
    is hidden or coloured of articulations; see below. *)
Theorem C133_looks_partial : forall valid zero os, Forall plain_obj os ->
  exists os', map (objFromMei valid zero) (flat_map objToMei os) = map Some os' /\ Forall2 same_obj os os'.
Proof.
  intros valid zero os. induction os as [|o os IH]; intros H; [exists []; split; constructor|].
  destruct (IH (Forall_inv_tail H)) as (os' & E & F). pose proof (Forall_inv H) as P. cbn [flat_map]. rewrite map_app, E.
  destruct o as [n|c|c|s].
  - exists (LN (noteFromMei valid zero (noteToMei true n)) :: os'). split; [reflexivity|]. constructor; [|exact F]. apply note_round; [exact P|discriminate].
  - exists (LC (chordFromMei valid zero (chordToMei c)) :: os'). split; [reflexivity|]. constructor; [|exact F]. apply chord_round, P.
  - destruct P.
  - destruct (s_hide s) eqn:Hs.
    + exists (LR (NStyle true [] false) :: os'). split; [|constructor; [|exact F]; split; [exact Hs|congruence]].
      unfold objToMei. change (existsb _ _) with true. cbn match. unfold restToMei. rewrite Hs. reflexivity.
    + exists (LR s :: os'). split; [|constructor; [|exact F]; split; reflexivity].
      unfold objToMei. change (existsb _ _) with true. cbn match. unfold restToMei. rewrite Hs. cbn [map app]. f_equal.
      unfold objFromMei. cbn [n_tag]. change (str_eqb (S_ "rest") (S_ "note")) with false. change (str_eqb (S_ "rest") (S_ "chord")) with false. rewrite str_eqb_refl. cbn match.
      f_equal. f_equal. apply (style_round _ [] s). reflexivity.
Qed.
Print Assumptions C133_looks_partial.

Definition nowhere : look := Look (Some None) [] None false [].
Example C133_looks_nonvacuous :
  let red := NStyle false (S_ "red") true in
  let n := LNote StemDown (S_ "triangle") red [Artic (S_ "up bow") (Look (Some (Some (S_ "below"))) [] None false [])] (Some (Grace false false true (Some true))) in
  let q := LNote StemUp (S_ "x") (NStyle true [] false) [] None in
  let os := [LN n; LC (LChord StemUp red [Artic (S_ "accent") nowhere; Artic (S_ "staccato") nowhere] None [q; q]); LR red] in
  Forall plain_obj os /\
  map (objFromMei (fun _ => false) (fun _ => false)) (flat_map objToMei os)
  = [Some (LN (LNote StemDown (S_ "triangle") red [Artic (S_ "up bow") (Look (Some (Some (S_ "below"))) [] None false [])] (Some (Grace true false false (Some false)))));
     Some (LC (LChord StemUp red [Artic (S_ "accent") nowhere; Artic (S_ "staccato") nowhere] None [q; q])); Some (LR red)].
Proof.
  assert (N : ordinary nowhere) by (split; [exists None; apply placed_unsaid; [reflexivity|left; reflexivity]|split; reflexivity]).
  cbn zeta. split; [|vm_compute; reflexivity]. constructor; [|constructor; [|constructor; [exact Logic.I|constructor]]].
  - split; [discriminate|]. split; [right; right; right; left; reflexivity|]. constructor; [|constructor]. split.
    + do 6 right. left. reflexivity.
    + split; [eexists; apply placed_said; [reflexivity|right; split; [reflexivity|differs]]|split; reflexivity].
  - split; [|split].
    + constructor; [split; [left; reflexivity|exact N]|]. constructor; [split; [right; left; reflexivity|exact N]|constructor].
    + repeat constructor; try discriminate; do 7 right; left; reflexivity.
    + right. split; [left; reflexivity|repeat constructor].
Qed.

(** False for chords without a stem: they come back with the default stem. *)
Theorem C133_chord_stem_refuted : forall valid zero c, h_stem c = NoStem ->
  exists c', map (objFromMei valid zero) (objToMei (LC c)) = [Some (LC c')] /\ h_stem c' = StemAny.
Proof.
  intros valid zero c H. exists (chordFromMei valid zero (chordToMei c)). split; [reflexivity|]. unfold chordFromMei.
  assert (E : n_attr (chordToMei c) "stem.dir" = None).
  { unfold n_attr, chordToMei. rewrite !assoc_app, grace_no, style_no by differs. rewrite H. reflexivity. }
  rewrite E. reflexivity.
Qed.
Print Assumptions C133_chord_stem_refuted.

(** False for percussion chords: they come back as invisible rests. *)
Theorem C133_percussion_refuted : forall valid zero c, map (objFromMei valid zero) (objToMei (LP c)) = [Some (LR (NStyle true [] false))].
Proof. reflexivity. Qed.
Print Assumptions C133_percussion_refuted.

(** False for any other note head: it comes back as the normal one. *)
Theorem C133_heads_refuted : forall valid zero n, ~ In (q_head n) mei_heads ->
  exists n', map (objFromMei valid zero) (objToMei (LN n)) = [Some (LN n')] /\ q_head n' = S_ "normal" /\ q_head n' <> q_head n.
Proof.
  intros valid zero n H. exists (noteFromMei valid zero (noteToMei true n)). split; [reflexivity|].
  assert (E : q_head (noteFromMei valid zero (noteToMei true n)) = S_ "normal").
  { unfold noteFromMei, noteToMei. cbn [q_head]. unfold headFromMei, n_attr. rewrite !assoc_app, grace_no, stem_no, style_no by differs.
    unfold head_attrs, head_table, mei_heads in *. cbn [In] in H. cbn [assoc_str].
    repeat match goal with |- context[str_eqb ?x (q_head n)] => replace (str_eqb x (q_head n)) with false by (symmetry; apply str_eqb_neq; intros X; apply H; tauto)
                         | |- context[str_eqb (q_head n) ?x] => replace (str_eqb (q_head n) x) with false by (symmetry; apply str_eqb_neq; intros X; apply H; symmetry in X; tauto) end.
    reflexivity. }
  split; [exact E|]. rewrite E. intros X. apply H. rewrite <- X. left. reflexivity.
Qed.
Print Assumptions C133_heads_refuted.

(** C134.  A list of articulations in one attribute, separated by blanks, is read as the
    articulations that its items stand for, in order. *)
Inductive artic_item : str -> list str -> Prop :=
| item_both_marc : artic_item (S_ "marc-stacc") [S_ "strong accent"; S_ "staccato"]
| item_both_ten : artic_item (S_ "ten-stacc") [S_ "tenuto"; S_ "staccato"]
| item_one n v : In (n, v) artic_table -> artic_item v [n].

Lemma item_read p v ns : artic_item v ns -> map ar_name (articsFromAttr p v) = ns.
Proof.
  intros H. unfold articsFromAttr. rewrite map_map. cbn [ar_name]. rewrite map_id. destruct H as [| |n v I]; [reflexivity|reflexivity|].
  unfold artic_table in I. cbn [In] in I. repeat (destruct I as [I | I]; [injection I as <- <-; reflexivity|]). destruct I.
Qed.
Lemma item_blank v ns : artic_item v ns -> char_in " "%char v = false.
Proof.
  intros [| |n v' I]; [reflexivity|reflexivity|]. unfold artic_table in I. cbn [In] in I. repeat (destruct I as [I | I]; [injection I as <- <-; reflexivity|]). destruct I.
Qed.

Theorem C134_lists : forall p vs nss, vs <> [] -> Forall2 artic_item vs nss ->
  map ar_name (makeArticList p (join (S_ " ") vs)) = concat nss.
Proof.
  intros p vs nss NE H. unfold makeArticList. change (S_ " ") with [" "%char]. rewrite split_join; [|exact NE|].
  - clear NE. induction H as [|v ns vs nss I H IH]; [reflexivity|]. cbn [flat_map concat]. rewrite map_app, (item_read p v ns I), IH. reflexivity.
  - clear NE. induction H as [|v ns vs nss I H IH]; [reflexivity|]. cbn [forallb]. rewrite (item_blank v ns I), IH. reflexivity.
Qed.
Print Assumptions C134_lists.
Example C134_lists_nonvacuous : map ar_name (makeArticList None (S_ "acc ten-stacc upbow")) = [S_ "accent"; S_ "tenuto"; S_ "staccato"; S_ "up bow"].
Proof. vm_compute. reflexivity. Qed.

(** Articulations come back in order with their names and placements, if they are
    neither hidden nor coloured. *)
Theorem C134_written_partial : forall valid zero n n', Forall plain_artic (q_artics n) ->
  map (objFromMei valid zero) (objToMei (LN n)) = [Some (LN n')] -> Forall2 same_artic (q_artics n) (q_artics n').
Proof.
  intros valid zero n n' A E. change (map (objFromMei valid zero) (objToMei (LN n))) with [Some (LN (noteFromMei valid zero (noteToMei true n)))] in E.
  injection E as <-. unfold noteFromMei, noteToMei. cbn [q_artics]. unfold articsOf, n_attr. cbn [n_kids].
  rewrite !assoc_app, grace_no, stem_no, head_no, style_no by differs. rewrite app_nil_r. apply artics_round, A.
Qed.
Print Assumptions C134_written_partial.
Example C134_written_nonvacuous : plain_artic (Artic (S_ "organ heel") nowhere).
Proof. split; [unfold mei_artics; repeat (first [left; reflexivity | right])|]. split; [exists None; apply placed_unsaid; [reflexivity|left; reflexivity]|split; reflexivity]. Qed.

(** False for hidden and for coloured ones: whatever is written, none comes back so. *)
Theorem C134_looks_refuted : forall valid zero n a, In a (q_artics (noteFromMei valid zero n)) -> k_hide (ar_look a) = false /\ k_color (ar_look a) = [].
Proof.
  intros valid zero n a I. unfold noteFromMei, articsOf in I. cbn [q_artics] in I.
  assert (M : forall p v, In a (makeArticList p v) -> k_hide (ar_look a) = false /\ k_color (ar_look a) = []).
  { intros p v J. unfold makeArticList in J. apply in_flat_map in J as (w & _ & J). unfold articsFromAttr in J. apply in_map_iff in J as (m & <- & _). split; reflexivity. }
  apply in_app_iff in I as [I | I].
  - apply in_flat_map in I as (k & _ & I). destruct (str_eqb _ _); [|destruct I]. unfold articFromElement in I. destruct (n_attr k "artic"); [|destruct I]. eapply M. exact I.
  - destruct (n_attr n "artic"); [|destruct I]. eapply M. exact I.
Qed.
Print Assumptions C134_looks_refuted.
