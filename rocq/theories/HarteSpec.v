(** What Harte chord texts and chord symbols mean, and what the reader makes of a text. *)
From Coq Require Import List Ascii String Arith NArith ZArith Lia Bool Permutation.
From Verif Require Import PyStr PyStrProofs ClefModel HarteModel HarteProofs.
Import ListNotations.

(** ** What the texts and the chords mean *)

(** A note name in a Harte text. *)
Definition note (p : pname) : str :=
  nth (p_step p) (S_ "CDEFGAB") "?"%char
  :: (if (0 <=? p_alter p)%Z then repeat "#"%char (Z.to_nat (p_alter p)) else repeat "b"%char (Z.to_nat (- p_alter p))).
(** A Harte text: root, shorthand, list of degrees, and degree of the bass. *)
Definition text (r : pname) (sh : str) (ds : list str) (b : option str) : str :=
  note r ++ match sh, ds with
            | [], [] => []
            | _, [] => S_ ":" ++ sh
            | _, _ => S_ ":" ++ sh ++ S_ "(" ++ join (S_ ",") ds ++ S_ ")"
            end
         ++ match b with None => [] | Some d => S_ "/" ++ d end.

(** The shorthands of Harte's notation. *)
Definition shorthands : list (str * list str) :=
  map (fun '(k, l) => (S_ k, map S_ l))
  [("maj", ["3"; "5"]); ("min", ["b3"; "5"]); ("dim", ["b3"; "b5"]); ("aug", ["3"; "#5"]);
   ("maj7", ["3"; "5"; "7"]); ("min7", ["b3"; "5"; "b7"]); ("7", ["3"; "5"; "b7"]); ("dim7", ["b3"; "b5"; "bb7"]);
   ("hdim7", ["b3"; "b5"; "b7"]); ("minmaj7", ["b3"; "5"; "7"]); ("maj6", ["3"; "5"; "6"]); ("min6", ["b3"; "5"; "6"]);
   ("9", ["3"; "5"; "b7"; "9"]); ("maj9", ["3"; "5"; "7"; "9"]); ("min9", ["b3"; "5"; "b7"; "9"]); ("sus4", ["4"; "5"])]%string.
(** The degrees of the chord that a Harte text stands for: the root, those listed, and
    those of the shorthand that are not taken away. *)
Definition stands_for (sh : str) (ds : list str) (d : str) : Prop :=
  d = S_ "1" \/ (In d ds /\ forall d', d <> "*"%char :: d')
  \/ (exists imp, In (sh, imp) shorthands /\ In d imp /\ ~ In ("*"%char :: d) ds).

(** The degrees of a kind in music21's table, with flats as in Harte texts. *)
Definition m21_degrees (n : str) : list str :=
  map (map (fun c => if Ascii.eqb c "-"%char then "b"%char else c)) (split_char ","%char n).
Definition kind_has (types : list (str * str)) (k d : str) : Prop := exists n, In (k, n) types /\ In d (m21_degrees n).
(** The degrees of a chord symbol: those of its kind, unless a modification takes them
    away or alters them; the added ones; and the altered ones. *)
Definition has (types : list (str * str)) (c : chord) (d : str) : Prop :=
  (kind_has types (c_kind c) d
   /\ forall m a, In m (c_mods c) -> m_type m <> Add -> d <> spell a (m_degree m))
  \/ (exists m, In m (c_mods c) /\ m_type m = Add /\ d = spell (alteration m) (m_degree m))
  \/ (exists m a, In m (c_mods c) /\ m_type m = Alter /\ kind_has types (c_kind c) (spell a (m_degree m))
                  /\ d = spell (a + alteration m) (m_degree m)).

(** Semitones of the steps above C, and of the degrees of a major scale above its first. *)
Definition white (i : nat) : Z := nth i [0; 2; 4; 5; 7; 9; 11]%Z 0%Z.
(** [p] is degree [n], altered by [a], above [r]. *)
Definition stands (r : pname) (n : nat) (a : Z) (p : pname) : Prop :=
  p_step p = (p_step r + (n - 1)) mod 7
  /\ (p_alter p = p_alter r + a + white (n - 1) - (white (p_step p) - white (p_step r)) mod 12)%Z.

(** ** What is required of music21's table *)

(** The rows of the table that are used here. *)
Definition usual : list (str * str) :=
  map (fun '(k, n) => (S_ k, S_ n))
  [("major", "1,3,5"); ("minor", "1,-3,5"); ("augmented", "1,3,#5"); ("diminished", "1,-3,-5");
   ("dominant-seventh", "1,3,5,-7"); ("major-seventh", "1,3,5,7"); ("minor-major-seventh", "1,-3,5,7");
   ("minor-seventh", "1,-3,5,-7"); ("augmented-major-seventh", "1,3,#5,7"); ("augmented-seventh", "1,3,#5,-7");
   ("half-diminished-seventh", "1,-3,-5,-7"); ("diminished-seventh", "1,-3,-5,--7"); ("seventh-flat-five", "1,3,-5,-7");
   ("major-sixth", "1,3,5,6"); ("minor-sixth", "1,-3,5,6");
   ("major-ninth", "1,3,5,7,9"); ("dominant-ninth", "1,3,5,-7,9"); ("minor-major-ninth", "1,-3,5,7,9");
   ("minor-ninth", "1,-3,5,-7,9"); ("augmented-major-ninth", "1,3,#5,7,9"); ("augmented-dominant-ninth", "1,3,#5,-7,9");
   ("half-diminished-ninth", "1,-3,-5,-7,9"); ("half-diminished-minor-ninth", "1,-3,-5,-7,-9");
   ("diminished-ninth", "1,-3,-5,--7,9"); ("diminished-minor-ninth", "1,-3,-5,--7,-9");
   ("dominant-11th", "1,3,5,-7,9,11"); ("major-11th", "1,3,5,7,9,11"); ("minor-major-11th", "1,-3,5,7,9,11");
   ("minor-11th", "1,-3,5,-7,9,11"); ("augmented-major-11th", "1,3,#5,7,9,11"); ("augmented-11th", "1,3,#5,-7,9,11");
   ("half-diminished-11th", "1,-3,-5,-7,9,11"); ("diminished-11th", "1,-3,-5,--7,9,11");
   ("major-13th", "1,3,5,7,9,11,13"); ("dominant-13th", "1,3,5,-7,9,11,13"); ("minor-major-13th", "1,-3,5,7,9,11,13");
   ("minor-13th", "1,-3,5,-7,9,11,13"); ("augmented-major-13th", "1,3,#5,7,9,11,13");
   ("augmented-dominant-13th", "1,3,#5,-7,9,11,13"); ("half-diminished-13th", "1,-3,-5,-7,9,11,13");
   ("suspended-second", "1,2,5"); ("suspended-fourth", "1,4,5"); ("suspended-fourth-seventh", "1,4,5,-7");
   ("Italian", "1,#4,-6"); ("French", "1,2,#4,-6"); ("German", "1,-3,#4,-6"); ("pedal", "1"); ("power", "1,5");
   ("Tristan", "1,#4,#6,#9")]%string.
(** The table has those rows; no two of its rows are of the same kind; every kind has a
    name and the first degree. *)
Definition table_ok (types : list (str * str)) : Prop :=
  (forall e, In e usual -> In e types) /\ NoDup (map fst types)
  /\ (forall k n, In (k, n) types -> k <> [] /\ In (S_ "1") (m21_degrees n)).

(** ** Tables *)

Lemma m21_degrees_eq n : kind_degrees n = m21_degrees n.
Proof.
  unfold kind_degrees, m21_degrees. induction n as [|c n IH]; [reflexivity|]. cbn [map split_char].
  destruct (Ascii.eqb c ","%char) eqn:E.
  - apply Ascii.eqb_eq in E. subst c. cbn [Ascii.eqb Bool.eqb]. cbn [map]. f_equal. exact IH.
  - assert (E' : Ascii.eqb (if Ascii.eqb c "-"%char then "b"%char else c) ","%char = false) by (destruct (Ascii.eqb c "-"%char); [reflexivity|exact E]).
    rewrite E', IH. destruct (split_char ","%char n); reflexivity.
Qed.

Lemma nodup_row (types : list (str * str)) k n m : NoDup (map fst types) -> In (k, n) types -> In (k, m) types -> n = m.
Proof.
  induction types as [|(k', x) t IH]; intros ND H1 H2; [destruct H1|].
  cbn in ND. inversion ND as [|? ? N1 N2]; subst.
  destruct H1 as [H1|H1], H2 as [H2|H2]; try congruence.
  - injection H1 as -> ->. exfalso. apply N1, in_map_iff. exists (k, m). auto.
  - injection H2 as -> ->. exfalso. apply N1, in_map_iff. exists (k, n). auto.
  - apply IH; assumption.
Qed.
Lemma kind_has_row types k n d : table_ok types -> In (k, n) types -> (kind_has types k d <-> In d (m21_degrees n)).
Proof.
  intros (_ & ND & _) H. split.
  - intros (m & Hm & Hd). rewrite (nodup_row types k n m ND H Hm). exact Hd.
  - intro Hd. exists n. auto.
Qed.
Lemma kind_has_usual types k n d : table_ok types -> In (k, n) usual -> (kind_has types k d <-> In d (m21_degrees n)).
Proof. intros T H. apply kind_has_row; [exact T|]. apply (proj1 T), H. Qed.

Definition same_set (a b : list str) : bool := forallb (fun x => mem x b) a && forallb (fun x => mem x a) b.
Lemma same_set_In a b d : same_set a b = true -> (In d a <-> In d b).
Proof.
  unfold same_set. rewrite andb_true_iff, !forallb_forall. intros (H1 & H2). split; intro H; apply mem_In; auto.
Qed.
Fixpoint no_dup (l : list str) : bool := match l with [] => true | x :: l' => negb (mem x l') && no_dup l' end.
Lemma no_dup_NoDup l : no_dup l = true -> NoDup l.
Proof.
  induction l as [|x l IH]; cbn; intro H; [constructor|]. apply andb_true_iff in H as (H1 & H2).
  constructor; [apply mem_false, negb_true_iff, H1|auto].
Qed.
Fixpoint no_dup_num (l : list str) : bool :=
  match l with [] => true | x :: l' => negb (existsb (fun y => (num_of x =? num_of y)%N) l') && no_dup_num l' end.
Lemma no_dup_num_eq l : no_dup_num l = true -> forall x y, In x l -> In y l -> num_of x = num_of y -> x = y.
Proof.
  induction l as [|z l IH]; cbn; intros H x y Hx Hy E; [destruct Hx|]. apply andb_true_iff in H as (H1 & H2).
  apply negb_true_iff in H1.
  assert (N : forall w, In w l -> num_of z <> num_of w).
  { intros w Hw Q. enough (existsb (fun y => (num_of z =? num_of y)%N) l = true) by congruence.
    apply existsb_exists. exists w. split; [exact Hw|apply N.eqb_eq, Q]. }
  destruct Hx as [<-|Hx], Hy as [<-|Hy]; [reflexivity|exfalso; apply (N _ Hy), E|exfalso; apply (N _ Hx); auto|apply IH; auto].
Qed.

(** One row of the table of music21 against the tables of the converter. *)
Definition implied (sh : str) : list str := match assoc_str sh shorthands with Some l => l | None => [] end.
Definition row_ok (e : str * str) : bool :=
  let D := m21_degrees (snd e) in
  forallb is_degree D && no_dup_num D && mem (S_ "1") D
  && match assoc_str (fst e) kind_to_degrees with
     | None => false
     | Some s => same_set (S_ "1" :: degree_list s) D && negb (match s with [] => true | _ => false end)
     end
  && match assoc_str (fst e) kind_to_shorthand with
     | None => false
     | Some (sh, s) => same_set (S_ "1" :: degree_list s ++ implied sh) D && no_dup (degree_list s ++ implied sh)
                       && (match sh with [] => true | _ => match assoc_str sh shorthands with Some (_ :: _) => true | _ => false end end)
     end.
Lemma rows_ok : forallb row_ok usual = true.
Proof. vm_compute. reflexivity. Qed.
Lemma shorthands_eq : shorthand_to_degrees = shorthands.
Proof. vm_compute. reflexivity. Qed.
Lemma shorthands_unique sh imp : In (sh, imp) shorthands -> assoc_str sh shorthands = Some imp /\ sh <> [] /\ imp <> [] /\ NoDup imp
  /\ (forall d, In d imp -> is_degree d = true /\ (num_of d <> 1%N)) /\ forallb in_shorthand sh = true.
Proof.
  intro H.
  assert (C : forallb (fun e => negb (match fst e with [] => true | _ => false end) && negb (match snd e with [] => true | _ => false end) && no_dup (snd e)
                && forallb (fun d => is_degree d && negb (num_of d =? 1)%N) (snd e) && forallb in_shorthand (fst e)) shorthands = true) by (vm_compute; reflexivity).
  rewrite forallb_forall in C. specialize (C _ H). cbn [fst snd] in C.
  rewrite !andb_true_iff in C. destruct C as ((((C2 & C3) & C4) & C5) & C6).
  assert (C1 : Forall (fun e => assoc_str (fst e) shorthands = Some (snd e)) shorthands) by (repeat constructor).
  rewrite Forall_forall in C1. specialize (C1 _ H). cbn [fst snd] in C1.
  split; [exact C1|].
  split; [destruct sh; [discriminate|congruence]|].
  split; [destruct imp; [discriminate|congruence]|].
  split; [apply no_dup_NoDup, C4|]. split; [|exact C6].
  rewrite forallb_forall in C5. intros d Hd. specialize (C5 d Hd). apply andb_true_iff in C5 as (A & B).
  split; [exact A|]. apply negb_true_iff, N.eqb_neq in B. exact B.
Qed.
Lemma assoc_shorthands sh imp : assoc_str sh shorthands = Some imp -> In (sh, imp) shorthands.
Proof.
  intro H. enough (G : forall t, assoc_str sh t = Some imp -> In (sh, imp) t) by (apply G, H).
  clear. induction t as [|(k, v) t IH]; cbn; [discriminate|]. destruct (str_eqb sh k) eqn:E.
  - apply str_eqb_eq in E. intro Q; injection Q as ->. subst. left; reflexivity.
  - auto.
Qed.

(** ** Simplification keeps the degrees *)

Definition simplifications : list (string * mtype * N * Z * string) :=
  [("major", Add, 7%N, 0%Z, "major-seventh"); ("major", Add, 7%N, (-1)%Z, "dominant-seventh");
   ("minor", Add, 7%N, 0%Z, "minor-major-seventh"); ("minor", Add, 7%N, (-1)%Z, "minor-seventh");
   ("augmented", Add, 7%N, 0%Z, "augmented-major-seventh"); ("augmented", Add, 7%N, (-1)%Z, "augmented-seventh");
   ("diminished", Add, 7%N, (-1)%Z, "half-diminished-seventh"); ("diminished", Add, 7%N, (-2)%Z, "diminished-seventh");
   ("augmented-seventh", Add, 9%N, 0%Z, "augmented-dominant-ninth");
   ("augmented-major-seventh", Add, 9%N, 0%Z, "augmented-major-ninth");
   ("minor-seventh", Alter, 5%N, (-1)%Z, "half-diminished-seventh")]%string.

Lemma some_some (x y : str) : Some (Some x) = Some (Some y) -> x = y.
Proof. congruence. Qed.
Lemma simplified_in k m k' : simplified k m = Some (Some k') ->
  exists a d s b, In (a, m_type m, d, s, b) simplifications /\ k = S_ a /\ m_degree m = d /\ m_interval m = Some s /\ k' = S_ b.
Proof.
  unfold simplified, kind_in. cbn [existsb]. destruct m as [t d i]. cbn [m_type m_degree m_interval].
  repeat match goal with |- context [str_eqb k (S_ ?x)] => let E := fresh "E" in destruct (str_eqb k (S_ x)) eqn:E; [apply str_eqb_eq in E; subst k; clear | ] end;
  try (cbn; discriminate);
  (destruct t; [| |]); cbn [orb];
  repeat match goal with
  | |- context [str_eqb ?x ?y] => let v := eval vm_compute in (str_eqb x y) in change (str_eqb x y) with v; cbv iota
  end;
  try discriminate;
  repeat match goal with
  | |- context [N.eqb d ?x] => destruct (N.eqb_spec d x); [subst d|]
  end; try discriminate; try lia;
  (destruct i as [s|]; [|discriminate]); cbn [andb];
  repeat match goal with
  | |- context [Z.eqb s ?x] => destruct (Z.eqb_spec s x); [subst s|]
  end; cbn [andb]; try discriminate;
  intro Q; apply some_some in Q;
  do 4 eexists; (split; [|split; [reflexivity|split; [reflexivity|split; [reflexivity|symmetry; exact Q]]]]);
  cbn [In simplifications]; tauto.
Qed.

Definition deg_list (k : string) : list str := match assoc_str (S_ k) usual with Some n => m21_degrees n | None => [] end.
Lemma assoc_usual k n : assoc_str k usual = Some n -> In (k, n) usual.
Proof.
  intro H. enough (G : forall t, assoc_str k t = Some n -> In (k, n) t) by (apply G, H).
  clear. induction t as [|(k', v) t IH]; cbn; [discriminate|]. destruct (str_eqb k k') eqn:E.
  - apply str_eqb_eq in E. intro Q; injection Q as ->. subst. left; reflexivity.
  - auto.
Qed.
Definition simple_ok (e : string * mtype * N * Z * string) : bool :=
  let '(a, t, d, s, b) := e in
  match assoc_str (S_ a) usual, assoc_str (S_ b) usual with
  | Some x, Some y =>
      match t with
      | Add => same_set (spell s d :: m21_degrees x) (m21_degrees y)
      | _ => same_set (map (fun z => if (num_of z =? d)%N then spell (alt_of z + s) d else z) (m21_degrees x)) (m21_degrees y)
             && forallb is_degree (m21_degrees x)
      end
  | _, _ => false
  end.
Lemma simple_all : forallb simple_ok simplifications = true.
Proof. vm_compute. reflexivity. Qed.
Lemma simple_types : forallb (fun '(_, t, _, _, _) => match t with Subtract => false | _ => true end) simplifications = true.
Proof. reflexivity. Qed.

Lemma alt_spell a n : alt_of (spell a n) = a.
Proof. apply spell_count. Qed.

Lemma simplify_has types c c' : table_ok types -> simplify c = Some c' ->
  c_root c' = c_root c /\ c_bass c' = c_bass c /\ (forall d, has types c' d <-> has types c d)
  /\ (c' = c \/ (c_mods c' = [] /\ In (c_kind c') (map fst usual))).
Proof.
  intros T. unfold simplify. destruct (c_mods c) as [|m [|m2 ms]] eqn:Em.
  - intro Q; injection Q as <-. repeat split; auto.
  - destruct (simplified (c_kind c) m) as [[k|]|] eqn:E; [| |discriminate].
    + intro Q; injection Q as <-. cbn [c_root c_bass c_kind c_mods].
      destruct (simplified_in _ _ _ E) as (a & d0 & s & b & Hin & Ek & Ed & Ei & Ek').
      pose proof simple_all as SA. rewrite forallb_forall in SA. specialize (SA _ Hin). unfold simple_ok in SA.
      pose proof simple_types as ST. rewrite forallb_forall in ST. specialize (ST _ Hin). cbv beta iota in ST.
      destruct (assoc_str (S_ a) usual) as [x|] eqn:Ea; [|discriminate].
      destruct (assoc_str (S_ b) usual) as [y|] eqn:Eb; [|discriminate].
      apply assoc_usual in Ea. apply assoc_usual in Eb.
      split; [reflexivity|]. split; [reflexivity|]. split.
      * intro d. unfold has. cbn [c_kind c_mods]. rewrite Em, Ek, Ek'.
        rewrite (kind_has_usual types (S_ b) y d T Eb).
        assert (Al : alteration m = s) by (unfold alteration; rewrite Ei; reflexivity).
        destruct (m_type m) eqn:Et; [| discriminate |].
        -- pose proof (same_set_In _ _ d SA) as SS. cbn [In] in SS. split.
           ++ intros [(H & _)|[(m' & [] & _)|(m' & ? & [] & _)]].
              apply SS in H as [H|H].
              ** right; left. exists m. split; [left; reflexivity|]. rewrite Et, Al, Ed. auto.
              ** left. split; [apply (kind_has_usual types (S_ a) x d T Ea), H|]. intros m' a' [<-|[]] N. congruence.
           ++ intros [(H & _)|[(m' & [<-|[]] & _ & H)|(m' & ? & [<-|[]] & N & _)]]; [| |congruence].
              ** left. split; [|intros m' ? []]. apply SS. right. apply (kind_has_usual types (S_ a) x d T Ea), H.
              ** left. split; [|intros m' ? []]. apply SS. left. rewrite H, Al, Ed. reflexivity.
        -- apply andb_true_iff in SA as (SA & SD). pose proof (same_set_In _ _ d SA) as SS.
           rewrite forallb_forall in SD. split.
           ++ intros [(H & _)|[(m' & [] & _)|(m' & ? & [] & _)]].
              apply SS in H. apply in_map_iff in H as (z & Ez & Hz). pose proof (is_degree_spell z (SD z Hz)) as Sz.
              destruct (N.eqb_spec (num_of z) d0) as [En|En].
              ** right; right. exists m, (alt_of z). split; [left; reflexivity|]. split; [exact Et|].
                 rewrite Ed, Al. split; [|auto]. apply (kind_has_usual types (S_ a) x _ T Ea). rewrite <- En, <- Sz. exact Hz.
              ** left. subst z. split; [apply (kind_has_usual types (S_ a) x d T Ea), Hz|].
                 intros m' a' [<-|[]] _ Q. apply En. rewrite Q, num_spell. exact Ed.
           ++ intros [(H & Hn)|[(m' & [<-|[]] & N & _)|(m' & a' & [<-|[]] & _ & H & Hd)]]; [|congruence|].
              ** left. split; [|intros m' ? []]. apply SS. apply in_map_iff. exists d.
                 apply (kind_has_usual types (S_ a) x d T Ea) in H. split; [|exact H].
                 destruct (N.eqb_spec (num_of d) d0) as [En|En]; [|reflexivity].
                 exfalso. apply (Hn m (alt_of d)); [left; reflexivity|congruence|]. rewrite Ed, <- En. apply is_degree_spell, SD, H.
              ** left. split; [|intros m' ? []]. apply SS. apply in_map_iff. exists (spell a' (m_degree m)).
                 rewrite num_spell, alt_spell, Ed, N.eqb_refl. split; [rewrite Hd, Al, Ed; reflexivity|].
                 rewrite Ed in H. apply (kind_has_usual types (S_ a) x _ T Ea), H.
      * right. split; [reflexivity|]. rewrite Ek'. apply in_map_iff. exists (S_ b, y). auto.
    + intro Q; injection Q as <-. repeat split; auto.
  - intro Q; injection Q as <-. repeat split; auto.
Qed.

(** ** Reading the parts of a text *)

Lemma show_small n : 1 <= n <= 7 -> show_N (N.of_nat n) = [nth n (S_ "01234567") "?"%char].
Proof. intro H. do 8 (destruct n as [|n]; [try lia; reflexivity|]). lia. Qed.

Lemma note_chars r : p_step r < 7 -> forallb in_root (note r) = true.
Proof.
  intro H. unfold note. cbn [forallb]. apply andb_true_iff. split.
  - destruct r as [i a]. cbn [p_step] in *. do 7 (destruct i as [|i]; [reflexivity|]). lia.
  - destruct (0 <=? p_alter r)%Z; apply forallb_repeat; reflexivity.
Qed.
Lemma note_cons r : exists c s, note r = c :: s.
Proof. unfold note. eauto. Qed.

Lemma parse_root_note r : p_step r < 7 -> parse_root (note r) = Some r.
Proof.
  intro H. destruct r as [i a]. unfold note, parse_root. cbn [p_step p_alter] in *.
  assert (E : index_of (nth i (S_ "CDEFGAB") "?"%char) letters = Some i) by (do 7 (destruct i as [|i]; [reflexivity|]); lia).
  rewrite E. destruct (Z.leb_spec 0 a).
  - rewrite forallb_repeat by reflexivity. rewrite repeat_length, Z2Nat.id by lia. reflexivity.
  - destruct (Z.to_nat (- a)) as [|k] eqn:Ek; [lia|].
    assert (F : forallb (Ascii.eqb "#"%char) (repeat "b"%char (S k)) = false) by reflexivity.
    rewrite F, forallb_repeat by reflexivity. rewrite repeat_length, <- Ek, Z2Nat.id by lia. do 2 f_equal. lia.
Qed.

Definition bass_text (b : option str) : str := match b with None => [] | Some d => S_ "/" ++ d end.
Definition bass_form (b : option str) : Prop := match b with None => True | Some d => exists a n, d = spell a n end.
Lemma parse_bass_text b : bass_form b -> parse_bass (bass_text b) = Some (match b with None => [] | Some d => d end).
Proof.
  destruct b as [d|]; [|reflexivity]. intros (a & n & ->). cbn [bass_text app S_ list_ascii_of_string parse_bass].
  rewrite spell_marks, (span_app_all in_accid (marks a) (show_N n)).
  - rewrite show_N_digits. destruct (show_N_cons n) as (c & s & -> & _). reflexivity.
  - apply marks_all; reflexivity.
  - apply show_N_head_not. intros c Hc. unfold in_accid, char_in. cbn.
    destruct (Ascii.eqb c "#"%char) eqn:E1; [apply Ascii.eqb_eq in E1; subst; vm_compute in Hc; discriminate|].
    destruct (Ascii.eqb c "b"%char) eqn:E2; [apply Ascii.eqb_eq in E2; subst; vm_compute in Hc; discriminate|]. reflexivity.
Qed.
Lemma bass_head b (p : ascii -> bool) : p "/"%char = false -> match bass_text b with [] => True | c :: _ => p c = false end.
Proof. destruct b; cbn; auto. Qed.

(** Degrees in a list: spelled degrees, with or without a star. *)
Definition listable (d : str) : Prop := exists a n, d = spell a n \/ d = "*"%char :: spell a n.
Lemma listable_chars d : listable d -> forallb in_degrees d = true /\ d <> [] /\ char_in ","%char d = false.
Proof.
  intros (a & n & [->| ->]).
  - repeat split; [|apply spell_nil|apply spell_no_comma].
    apply spell_chars; try reflexivity. intros c Hc. unfold in_degrees. rewrite Hc. apply orb_true_r.
  - repeat split; [|discriminate|cbn; apply spell_no_comma].
    cbn [forallb]. rewrite spell_chars; try reflexivity. intros c Hc. unfold in_degrees. rewrite Hc. apply orb_true_r.
Qed.
Lemma join_chars p ds : p ","%char = true -> (forall d, In d ds -> forallb p d = true) -> forallb p (join (S_ ",") ds) = true.
Proof.
  intro Hp. induction ds as [|d [|d2 ds] IH]; intro H; [reflexivity|apply H; left; reflexivity|].
  change (join (S_ ",") (d :: d2 :: ds)) with (d ++ S_ "," ++ join (S_ ",") (d2 :: ds)).
  rewrite forallb_app, H by (left; reflexivity). cbn [app S_ list_ascii_of_string forallb andb]. rewrite Hp.
  apply IH. intros; apply H; right; assumption.
Qed.
Lemma join_nonempty ds : ds <> [] -> (forall d, In d ds -> d <> []) -> join (S_ ",") ds <> [].
Proof.
  destruct ds as [|d [|d2 ds]]; intros N H; [congruence|apply H; left; reflexivity|].
  change (join (S_ ",") (d :: d2 :: ds)) with (d ++ S_ "," ++ join (S_ ",") (d2 :: ds)).
  destruct d; [exfalso; apply (H []); [left; reflexivity|reflexivity]|discriminate].
Qed.
Lemma degree_list_join ds : (forall d, In d ds -> listable d) -> degree_list (join (S_ ",") ds) = ds.
Proof.
  intro H. unfold degree_list. destruct ds as [|d ds]; [reflexivity|].
  assert (N : join (S_ ",") (d :: ds) <> []) by (apply join_nonempty; [discriminate|]; intros x Hx; apply listable_chars, H, Hx).
  destruct (join (S_ ",") (d :: ds)) eqn:E; [congruence|]. rewrite <- E.
  apply split_join; [discriminate|]. apply forallb_forall. intros x Hx. apply negb_true_iff, listable_chars, H, Hx.
Qed.

Definition quality (sh : str) (ds : list str) : str :=
  match sh, ds with
  | [], [] => []
  | _, [] => S_ ":" ++ sh
  | _, _ => S_ ":" ++ sh ++ S_ "(" ++ join (S_ ",") ds ++ S_ ")"
  end.
Lemma parse_text r sh ds b : p_step r < 7 -> forallb in_shorthand sh = true -> (forall d, In d ds -> listable d) -> bass_form b ->
  parseHarte (text r sh ds b) = Some (note r, sh, join (S_ ",") ds, match b with None => [] | Some d => d end).
Proof.
  intros Hr Hs Hd Hb. unfold parseHarte. change (text r sh ds b) with (note r ++ quality sh ds ++ bass_text b).
  remember (quality sh ds) as q eqn:Q0.
  assert (E : span in_root (note r ++ q ++ bass_text b) = (note r, q ++ bass_text b)).
  { apply span_app_all; [apply note_chars, Hr|]. rewrite Q0. destruct sh, ds; try reflexivity. apply bass_head. reflexivity. }
  rewrite E. destruct (note_cons r) as (c & s & En). rewrite En. clear E.
  assert (Q : parse_quality (q ++ bass_text b) = Some (sh, join (S_ ",") ds, match b with None => [] | Some d => d end)).
  { destruct ds as [|d ds].
    - destruct sh as [|c0 sh].
      + rewrite Q0. cbn [quality app]. unfold parse_quality. pose proof (parse_bass_text b Hb) as P.
        destruct b as [d|]; [|reflexivity]. cbn [bass_text app S_ list_ascii_of_string] in *. rewrite P. reflexivity.
      + rewrite Q0. cbn [quality]. rewrite <- app_assoc. cbn [app S_ list_ascii_of_string parse_quality].
        change (c0 :: sh ++ bass_text b) with ((c0 :: sh) ++ bass_text b).
        rewrite (span_app_all in_shorthand (c0 :: sh) (bass_text b)); [|exact Hs|apply bass_head; reflexivity].
        pose proof (parse_bass_text b Hb) as P. destruct b as [d|]; [|reflexivity].
        cbn [bass_text app S_ list_ascii_of_string] in *. rewrite P. reflexivity.
    - assert (Eq : q = S_ ":" ++ sh ++ S_ "(" ++ join (S_ ",") (d :: ds) ++ S_ ")") by (rewrite Q0; destruct sh; reflexivity).
      rewrite Eq. rewrite <- !app_assoc. cbn [app S_ list_ascii_of_string parse_quality].
      rewrite (span_app_all in_shorthand sh); [|exact Hs|reflexivity].
      rewrite (span_app_all in_degrees).
      + assert (N : join (S_ ",") (d :: ds) <> []) by (apply join_nonempty; [discriminate|]; intros x Hx; apply listable_chars, Hd, Hx).
        change (join [","%char] (d :: ds)) with (join (S_ ",") (d :: ds)).
        destruct (join (S_ ",") (d :: ds)) as [|c1 j]; [congruence|].
        rewrite (parse_bass_text b Hb). reflexivity.
      + apply join_chars; [reflexivity|]. intros x Hx. apply listable_chars, Hd, Hx.
      + reflexivity. }
  rewrite Q. reflexivity.
Qed.

(** ** The bass *)

Lemma bass_parts_marks a rest acc : bass_parts (marks a ++ rest) acc = bass_parts rest (acc ++ marks a).
Proof.
  unfold marks. destruct (0 <=? a)%Z.
  - generalize (Z.to_nat a); intro k. revert acc. induction k as [|k IH]; intro acc; cbn [repeat app bass_parts]; [rewrite app_nil_r; reflexivity|].
    cbn. rewrite IH, <- app_assoc. reflexivity.
  - generalize (Z.to_nat (- a)); intro k. revert acc. induction k as [|k IH]; intro acc; cbn [repeat app bass_parts]; [rewrite app_nil_r; reflexivity|].
    cbn. rewrite IH, <- app_assoc. reflexivity.
Qed.

Lemma iv_parse_rep c k g : 1 <= g <= 7 -> (c = "A"%char \/ c = "d"%char) ->
  iv_parse (repeat c (S k) ++ show_N (N.of_nat g)) =
  Some (g, if Ascii.eqb c "A"%char then Z.of_nat (S k) else if perfect g then (- Z.of_nat (S k))%Z else (- Z.of_nat (S k) - 1)%Z).
Proof.
  intros Hg Hc. unfold iv_parse.
  rewrite (span_app_all (fun c => negb (is_digit c)) (repeat c (S k)) (show_N (N.of_nat g))).
  - rewrite show_small by exact Hg.
    assert (Hd : forallb is_digit [nth g (S_ "01234567") "?"%char] = true /\ N.to_nat (parse_N [nth g (S_ "01234567") "?"%char]) = g).
    { do 8 (destruct g as [|g]; [try lia; split; reflexivity|]). lia. }
    destruct Hd as (Hd & Hn). rewrite Hd. cbv zeta. rewrite Hn.
    assert (Nat.eqb g 0 = false) as -> by (apply Nat.eqb_neq; lia). cbn [negb orb].
    rewrite repeat_length.
    destruct Hc as [->| ->].
    + rewrite (forallb_repeat (Ascii.eqb "A"%char)) by reflexivity. cbn [repeat]. destruct (repeat "A"%char k); reflexivity.
    + rewrite (forallb_repeat (Ascii.eqb "d"%char)) by reflexivity.
      assert (F : forallb (Ascii.eqb "A"%char) (repeat "d"%char (S k)) = false) by reflexivity. rewrite F.
      cbn [repeat]. destruct (repeat "d"%char k); reflexivity.
  - apply forallb_repeat. destruct Hc as [->| ->]; reflexivity.
  - apply show_N_head_not. intros x Hx. rewrite Hx. reflexivity.
Qed.

Definition readable_degree (n : nat) (a : Z) : Prop := 1 <= n <= 7 /\ (n = 1 \/ n = 4 \/ n = 5 \/ (-1 <= a)%Z).
Lemma bass_iv_parse n a : readable_degree n a -> iv_parse (bass_iv_name (spell a (N.of_nat n))) = Some (n, a).
Proof.
  intros (Hn & Ha). unfold bass_iv_name. rewrite spell_marks, bass_parts_marks, (show_small n Hn).
  assert (E : bass_parts [nth n (S_ "01234567") "?"%char] ([] ++ marks a) = (marks a, [nth n (S_ "01234567") "?"%char])).
  { do 8 (destruct n as [|n]; [try lia; reflexivity|]). lia. }
  rewrite E, marks_count. rewrite <- (show_small n Hn).
  assert (P : str_eqb (show_N (N.of_nat n)) (S_ "1") || str_eqb (show_N (N.of_nat n)) (S_ "4") || str_eqb (show_N (N.of_nat n)) (S_ "5") = perfect n).
  { clear - Hn. do 8 (destruct n as [|n]; [try lia; reflexivity|]). lia. }
  rewrite P. unfold times, rep. destruct (perfect n) eqn:Pn.
  - destruct (Z.ltb_spec a 0); [|destruct (Z.ltb_spec 0 a)].
    + destruct (Z.to_nat (- a)) as [|k] eqn:Ek; [lia|]. rewrite iv_parse_rep by (auto; lia).
      cbn [Ascii.eqb Bool.eqb]. rewrite Pn. do 2 f_equal. lia.
    + destruct (Z.to_nat a) as [|k] eqn:Ek; [lia|]. rewrite iv_parse_rep by (auto; lia). cbn [Ascii.eqb Bool.eqb]. do 2 f_equal. lia.
    + assert (a = 0)%Z by lia. subst a. clear - Hn Pn. do 8 (destruct n as [|n]; [try lia; try (vm_compute in Pn; discriminate); reflexivity|]). lia.
  - assert (H1 : (-1 <= a)%Z) by (destruct Ha as [->|[->|[->|Ha]]]; [discriminate Pn|discriminate Pn|discriminate Pn|exact Ha]).
    destruct (Z.eqb_spec a (-1)).
    + subst a. clear - Hn Pn. do 8 (destruct n as [|n]; [try lia; try (vm_compute in Pn; discriminate); reflexivity|]). lia.
    + destruct (Z.ltb_spec a (-1)); [lia|]. destruct (Z.ltb_spec 0 a).
      * destruct (Z.to_nat a) as [|k] eqn:Ek; [lia|]. rewrite iv_parse_rep by (auto; lia). cbn [Ascii.eqb Bool.eqb]. do 2 f_equal. lia.
      * assert (a = 0)%Z by lia. subst a. clear - Hn Pn. do 8 (destruct n as [|n]; [try lia; try (vm_compute in Pn; discriminate); reflexivity|]). lia.
Qed.

Lemma transpose_stands r n a p : p_step r < 7 -> 1 <= n <= 7 -> stands r n a p -> transpose r n a = p.
Proof.
  intros Hr Hn (H1 & H2). destruct r as [i x], p as [j y]. cbn [p_step p_alter] in *. unfold transpose. cbn [p_step p_alter].
  subst j. f_equal. rewrite H2. clear H2.
  assert (E : (semis (n - 1) - (semis (i + (n - 1)) - semis i) = white (n - 1) - (white ((i + (n - 1)) mod 7) - white i) mod 12)%Z).
  { do 7 (destruct i as [|i]; [do 8 (destruct n as [|n]; [try lia; reflexivity|]); lia|]). lia. }
  lia.
Qed.

(** ** Reading *)

(** The bass of a text: none, or a readable degree. *)
Definition bass_reads (r : pname) (b : option str) (p : pname) : Prop :=
  match b with
  | None => p = r
  | Some d => exists n a, readable_degree n a /\ d = spell a (N.of_nat n) /\ stands r n a p
  end.

Lemma simplified_some k m : (m_type m <> Subtract -> m_interval m <> None) -> simplified k m <> None.
Proof.
  intro H. unfold simplified. destruct (kind_in k _); [|discriminate].
  destruct (m_type m); [| discriminate |].
  - destruct (m_interval m); [|exfalso; apply H; [discriminate|reflexivity]].
    destruct (m_degree m =? 7)%N; [destruct (kind_in k _); discriminate|destruct (m_degree m =? 9)%N; discriminate].
  - destruct (m_interval m); [|exfalso; apply H; [discriminate|reflexivity]].
    destruct (m_degree m =? 5)%N; discriminate.
Qed.

Lemma read_core types set_order r sh ds b p :
  table_ok types -> (forall l, Permutation (set_order l) l) ->
  p_step r < 7 -> (sh = [] \/ exists imp, In (sh, imp) shorthands) ->
  (forall d, In d ds -> (exists a n, d = spell a n /\ (n = 1%N -> a = 0%Z)) \/ (sh <> [] /\ exists a n, d = "*"%char :: spell a n)) ->
  bass_reads r b p ->
  exists c, makeChordSymbolFromHarte types set_order (text r sh ds b) = Some (Some (Sym c))
    /\ c_root c = r /\ c_bass c = p /\ forall d, has types c d <-> stands_for sh ds d.
Proof.
  intros T Hso Hr Hsh Hds Hb. unfold makeChordSymbolFromHarte.
  assert (Hl : forall d, In d ds -> listable d).
  { intros d Hd. destruct (Hds d Hd) as [(a & n & E & _)|(_ & a & n & E)]; exists a, n; auto. }
  assert (Hbf : bass_form b) by (destruct b as [d|]; [destruct Hb as (n & a & _ & E & _); exists a, (N.of_nat n); exact E|exact I]).
  assert (Hshc : forallb in_shorthand sh = true) by (destruct Hsh as [->|(imp & Hi)]; [reflexivity|apply (shorthands_unique _ _ Hi)]).
  assert (NN : str_eqb (text r sh ds b) (S_ "N") = false).
  { apply str_eqb_neq. unfold text, note. cbn [app]. intro Q. injection Q as Q _. clear - Q Hr.
    destruct r as [i x]. cbn [p_step] in *. do 7 (destruct i as [|i]; [discriminate|]). lia. }
  rewrite NN, (parse_text r sh ds b Hr Hshc Hl Hbf), (parse_root_note r Hr).
  set (B := match b with None => [] | Some d => d end).
  assert (EB : exists q, (match B with [] => Some None | _ :: _ => deHartifyBass B r end) = Some q
               /\ match q with None => r | Some x => x end = p).
  { unfold B. destruct b as [d|]; [|exists None; split; [reflexivity|symmetry; exact Hb]].
    destruct Hb as (n & a & Hrd & -> & Hst).
    destruct (spell a (N.of_nat n)) as [|c0 s0] eqn:Es; [exfalso; exact (spell_nil _ _ Es)|]. rewrite <- Es.
    unfold deHartifyBass. destruct (str_eqb (spell a (N.of_nat n)) (S_ "1")) eqn:E1.
    - apply str_eqb_eq in E1. exists None. split; [reflexivity|].
      change (S_ "1") with (spell 0 1) in E1. apply spell_inj in E1 as (-> & En). assert (n = 1) by lia. subst n.
      destruct Hst as (H1 & H2). destruct r as [i x], p as [j y]. cbn [p_step p_alter] in *.
      rewrite Nat.sub_diag, Nat.add_0_r, Nat.mod_small in H1 by exact Hr. subst j. f_equal. rewrite H2. change (white (1 - 1)) with 0%Z. rewrite Z.sub_diag. cbn. lia.
    - rewrite (bass_iv_parse n a Hrd). exists (Some (transpose r n a)). split; [reflexivity|].
      apply transpose_stands; [exact Hr|apply Hrd|exact Hst]. }
  destruct EB as (q & EB & Eq). rewrite EB. cbv zeta.
  set (l0 := listed_degrees sh (join (S_ ",") ds)).
  set (l := if mem (S_ "1") l0 then l0 else S_ "1" :: l0).
  assert (L0 : forall d, In d l0 <-> (In d ds /\ forall d', d <> "*"%char :: d') \/ (exists imp, In (sh, imp) shorthands /\ In d imp /\ ~ In ("*"%char :: d) ds)).
  { intro d. unfold l0. destruct Hsh as [->|(imp & Hi)].
    - unfold listed_degrees. rewrite (degree_list_join ds Hl). split.
      + intro H. left. split; [exact H|]. intros d' ->. destruct (Hds _ H) as [(a & n & E & _)|(N & _)]; [exact (spell_not_star _ _ _ (eq_sym E))|congruence].
      + intros [(H & _)|(imp & Hi & _)]; [exact H|]. apply shorthands_unique in Hi as (_ & N & _). congruence.
    - destruct (shorthands_unique _ _ Hi) as (A & N1 & N2 & N3 & _).
      rewrite (listed_In sh (join (S_ ",") ds) imp d); [|rewrite shorthands_eq; exact A|exact N1|exact N2|exact N3].
      rewrite (degree_list_join ds Hl). split.
      + intros [(H & Hn)|H]; [left; split; [exact H|]; intros d' ->; apply Hn; exists d'; reflexivity|right; exists imp; split; [exact Hi|exact H]].
      + intros [(H & Hn)|(imp' & Hi' & H)]; [left; split; [exact H|]; intros (d' & Q); exact (Hn d' Q)|right].
        destruct (shorthands_unique _ _ Hi') as (A' & _). assert (imp' = imp) by congruence. subst. exact H. }
  assert (L : forall d, In d l <-> stands_for sh ds d).
  { intro d. unfold stands_for. rewrite <- L0. unfold l. destruct (mem (S_ "1") l0) eqn:M.
    - apply mem_In in M. split; [auto|]. intros [->|H]; assumption.
    - cbn [In]. split; intros [H|H]; auto. }
  assert (LD : forall d, In d l -> exists a n, d = spell a n /\ (n = 1%N -> a = 0%Z)).
  { intros d Hd. apply L in Hd as [->|[(Hd & Hn)|(imp & Hi & Hd & _)]].
    - exists 0%Z, 1%N. split; [reflexivity|auto].
    - destruct (Hds d Hd) as [H|(_ & a & n & E)]; [exact H|exfalso; exact (Hn _ E)].
    - destruct (shorthands_unique _ _ Hi) as (_ & _ & _ & _ & D & _). destruct (D d Hd) as (D1 & D2).
      exists (alt_of d), (num_of d). split; [apply is_degree_spell, D1|congruence]. }
  assert (LI : forall d, In d l -> degreeInt d <> None) by (intros d Hd; destruct (LD d Hd) as (a & n & -> & _); rewrite degreeInt_spell; discriminate).
  destruct (sorted_perm l LI) as (l1 & -> & P1).
  assert (P1' : forall d, In d l1 <-> In d l) by (intro; split; apply Permutation_in; [exact P1|symmetry; exact P1]).
  destruct T as (T1 & T2 & T3) eqn:ET. assert (T' : table_ok types) by exact T. clear ET.
  destruct (find_fits types l1) as (k & mo & rest & Ef & Nk & Fit).
  { apply P1', L. left. reflexivity. }
  { intros (k, n) H. apply (T3 k n H). }
  { apply T1. apply assoc_usual. vm_compute. reflexivity. }
  rewrite Ef. destruct k as [|ck k]; [congruence|].
  set (kd := ck :: k) in *. destruct Fit as (n & Hn & F1 & F2).
  assert (RI : forall d, In d (set_order rest) -> degreeInt d <> None).
  { intros d Hd. apply LI, P1'. apply (Permutation_in d (Hso rest)) in Hd. apply F2, Hd. }
  destruct (sorted_perm (set_order rest) RI) as (l2 & -> & P2). cbn [option_map].
  assert (P2' : forall d, In d l2 <-> In d rest).
  { intro d. split; intro H; [eapply Permutation_in; [|eapply Permutation_in; [exact P2|exact H]]; apply Hso|].
    eapply Permutation_in; [symmetry; exact P2|]. eapply Permutation_in; [symmetry; apply Hso|exact H]. }
  destruct (added_spec l2) as (ms & -> & Hms).
  { intros d Hd. apply LI, P1', F2, P2', Hd. }
  assert (Adds : forall m, In m ms -> m_type m = Add /\ m_interval m <> None).
  { intros m Hm. apply Hms in Hm as (d & _ & _ & ->). split; [reflexivity|discriminate]. }
  assert (Hc0 : forall d, has types (Chord r p kd ms) d <-> In d l).
  { intro d. unfold has. cbn [c_kind c_mods]. rewrite (kind_has_row types kd n d T' Hn).
    rewrite <- (m21_degrees_eq n). split.
    - intros [(H & _)|[(m & Hm & _ & ->)|(m & a & Hm & Ht & _)]].
      + apply P1', F1, H.
      + apply Hms in Hm as (d & Hd & _ & ->). cbn [alteration m_interval m_degree].
        apply P2', F2 in Hd as (Hd & _). apply P1' in Hd. destruct (LD d Hd) as (a & x & E & _).
        rewrite E in *. rewrite alt_spell, num_spell. exact Hd.
      + rewrite (proj1 (Adds m Hm)) in Ht. discriminate.
    - intro Hd. destruct (mem d (kind_degrees n)) eqn:M.
      + left. apply mem_In in M. split; [exact M|]. intros m a Hm Ht. exfalso. apply Ht, (Adds m Hm).
      + right. left. apply mem_false in M. destruct (LD d Hd) as (a & x & E & H1).
        exists (Mod Add x (Some a)). split; [|split; [reflexivity|exact E]].
        apply Hms. exists d. rewrite E, num_spell, alt_spell. rewrite <- E. split; [|split; [|reflexivity]].
        * apply P2', F2. split; [apply P1', Hd|exact M].
        * intros ->. specialize (H1 eq_refl). subst a. apply M. rewrite E, m21_degrees_eq. change (spell 0 1) with (S_ "1"). apply (T3 kd n Hn). }
  rewrite Eq.
  assert (Hsi : exists c, simplify (Chord r p kd ms) = Some c).
  { unfold simplify. cbn [c_mods c_kind]. destruct ms as [|m [|m2 ms']]; eauto.
    destruct (Adds m (or_introl eq_refl)) as (Ht & Hi).
    assert (NS : simplified kd m <> None) by (apply simplified_some; congruence).
    destruct (simplified kd m) as [[x|]|]; eauto. congruence. }
  destruct Hsi as (c & Ec). rewrite Ec. exists c. split; [reflexivity|].
  destruct (simplify_has types _ c T' Ec) as (A1 & A2 & A3 & _). cbn [c_root c_bass] in A1, A2.
  split; [exact A1|]. split; [exact A2|]. intro d. rewrite A3, Hc0. apply L.
Qed.

(** ** Writing the root and the bass *)

Lemma accid_marks x : map (fun c => if Ascii.eqb c "-"%char then "b"%char else c) (accid "-"%char x) = marks x.
Proof.
  unfold accid, marks, rep. destruct (Z.ltb_spec 0 x), (Z.leb_spec 0 x); try lia.
  - generalize (Z.to_nat x). induction n; cbn; [reflexivity|]. f_equal. exact IHn.
  - assert (x = 0)%Z by lia. subst. reflexivity.
  - generalize (Z.to_nat (- x)). induction n; cbn; [reflexivity|]. f_equal. exact IHn.
Qed.
Lemma hartifyRoot_note r : p_step r < 7 -> hartifyRoot r = note r.
Proof.
  intro H. unfold hartifyRoot, pitch_name, note. cbn [map]. rewrite accid_marks. f_equal.
  destruct r as [i x]. cbn [p_step] in *. do 7 (destruct i as [|i]; [reflexivity|]). lia.
Qed.
Lemma pitch_name_inj p q : p_step p < 7 -> p_step q < 7 -> pitch_name p = pitch_name q -> p = q.
Proof.
  intros Hp Hq H. assert (E : note p = note q) by (rewrite <- !hartifyRoot_note by assumption; unfold hartifyRoot; rewrite H; reflexivity).
  assert (Some p = Some q) by (rewrite <- (parse_root_note p Hp), <- (parse_root_note q Hq), E; reflexivity). congruence.
Qed.

(** Where the bass may be: a degree within the octave above the root that is not a
    doubly diminished second, third, sixth or seventh. *)
Definition bass_ok (r b : pname) : Prop :=
  exists n a, readable_degree n a /\ stands r n a b /\ (0 <= white (n - 1) + a < 12)%Z.

Ltac semis_eval := repeat match goal with |- context [semis ?k] => let v := eval vm_compute in (semis k) in lazymatch v with Z0 => idtac | Zpos _ => idtac | Zneg _ => idtac end; change (semis k) with v end.
Lemma bass_interval_stands r b n a : p_step r < 7 -> 1 <= n <= 7 -> stands r n a b -> (0 <= white (n - 1) + a < 12)%Z ->
  bass_interval b r = (n, a).
Proof.
  intros Hr Hn (H1 & H2) H3. destruct r as [i x], b as [j y]. cbn [p_step p_alter] in *. subst j.
  unfold bass_interval. cbn [p_step p_alter].
  do 7 (destruct i as [|i];
    [ do 8 (destruct n as [|n];
        [ try (exfalso; lia);
          match type of H2 with context [(?u mod 12)%Z] => let v := eval vm_compute in (u mod 12)%Z in change (u mod 12)%Z with v in H2 end;
          match type of H2 with context [white ?u] => let v := eval vm_compute in (white u) in change (white u) with v in H2, H3 end;
          match goal with |- context [(?u mod 7)%nat] => let v := eval vm_compute in (u mod 7)%nat in change (u mod 7)%nat with v end;
          semis_eval;
          match goal with |- context [Z.ltb ?u ?v] => destruct (Z.ltb_spec u v) end; try (exfalso; lia);
          cbv beta iota zeta; cbn [Nat.add Nat.leb Nat.sub]; semis_eval; f_equal; lia |]); exfalso; lia |]).
  lia.
Qed.

Lemma last_app_one (l : str) c d : last (l ++ [c]) d = c.
Proof. apply last_last. Qed.
Lemma hartify_iv n a : readable_degree n a -> hartify_name (iv_name n a) = spell a (N.of_nat n).
Proof.
  intros (Hn & Ha). unfold hartify_name, iv_name. rewrite (show_small n Hn).
  assert (CD : count_char "d"%char [nth n (S_ "01234567") "?"%char] = 0 /\ count_char "A"%char [nth n (S_ "01234567") "?"%char] = 0).
  { do 8 (destruct n as [|n]; [try lia; split; reflexivity|]). lia. }
  destruct CD as (CD & CA). rewrite last_app_one, !count_char_app, CD, CA, !Nat.add_0_r.
  assert (P : str_eqb [nth n (S_ "01234567") "?"%char] (S_ "1") || str_eqb [nth n (S_ "01234567") "?"%char] (S_ "4") || str_eqb [nth n (S_ "01234567") "?"%char] (S_ "5") = perfect n).
  { clear - Hn. do 8 (destruct n as [|n]; [try lia; reflexivity|]). lia. }
  rewrite P, spell_marks, (show_small n Hn). unfold iv_quality, rep, marks.
  destruct (Z.ltb_spec 0 a).
  - rewrite count_repeat_same. assert ((0 <=? a)%Z = true) as -> by lia.
    destruct (Z.to_nat a) as [|k] eqn:Ek; [lia|]. cbn [repeat app]. destruct (perfect n); reflexivity.
  - destruct (Z.eqb_spec a 0) as [->|Na].
    + destruct (perfect n); reflexivity.
    + assert ((0 <=? a)%Z = false) as -> by lia. destruct (perfect n) eqn:Pn.
      * rewrite count_repeat_same. rewrite ?Nat.add_0_r. destruct (Z.to_nat (- a)) as [|k] eqn:Ek; [lia|]. cbn [repeat app]. reflexivity.
      * assert (a = -1)%Z by (destruct Ha as [->|[->|[->|Ha]]]; [discriminate Pn|discriminate Pn|discriminate Pn|lia]). subst a. reflexivity.
Qed.

Lemma hartifyBass_ok r b : p_step r < 7 -> bass_ok r b ->
  exists o, bass_reads r o b /\ hartifyBass b r = match o with None => [] | Some d => d end.
Proof.
  intros Hr (n & a & Hrd & Hst & Hw). unfold hartifyBass.
  assert (Hb : p_step b < 7) by (rewrite (proj1 Hst); apply Nat.mod_upper_bound; lia).
  destruct (str_eqb (pitch_name b) (pitch_name r)) eqn:E.
  - apply str_eqb_eq in E. apply pitch_name_inj in E; [|exact Hb|exact Hr]. exists None. split; [exact E|reflexivity].
  - rewrite (bass_interval_stands r b n a Hr (proj1 Hrd) Hst Hw), (hartify_iv n a Hrd).
    exists (Some (spell a (N.of_nat n))). split; [|reflexivity]. exists n, a. auto.
Qed.

