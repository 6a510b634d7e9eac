(** Lemmas on degrees, lists of degrees and bass notes of Harte texts. *)
From Coq Require Import List Ascii String Arith NArith ZArith Lia Bool Permutation.
From Verif Require Import PyStr PyStrProofs ClefModel HarteModel.
Import ListNotations.

(** A degree as it is spelled: sharps or flats, then the number. *)
Definition spell (a : Z) (n : N) : str :=
  (if (0 <=? a)%Z then repeat "#"%char (Z.to_nat a) else repeat "b"%char (Z.to_nat (- a))) ++ show_N n.
Definition alteration (m : cmod) : Z := match m_interval m with None => 0%Z | Some s => s end.

Lemma mod_degree_spell m : mod_degree m = spell (alteration m) (m_degree m).
Proof.
  unfold mod_degree, spell, alteration, rep. destruct (m_interval m) as [s|]; [|reflexivity].
  f_equal. destruct (Z.ltb_spec 0 s), (Z.leb_spec 0 s); try lia.
  - f_equal. lia.
  - assert (s = 0)%Z by lia. subst. reflexivity.
  - f_equal. lia.
Qed.

Lemma mark_not_digit c : is_digit c = true -> is_mark c = false.
Proof.
  intro H. unfold is_digit in H. unfold is_mark, nat_of_ascii.
  destruct (Ascii.eqb c "b"%char) eqn:E; [apply Ascii.eqb_eq in E; subst; vm_compute in H; discriminate|].
  cbn [orb]. lia.
Qed.

Lemma forallb_repeat p (c : ascii) n : p c = true -> forallb p (repeat c n) = true.
Proof. intro H. induction n; cbn; [reflexivity|]. rewrite H. exact IHn. Qed.

Definition marks (a : Z) : str := if (0 <=? a)%Z then repeat "#"%char (Z.to_nat a) else repeat "b"%char (Z.to_nat (- a)).
Lemma spell_marks a n : spell a n = marks a ++ show_N n.
Proof. reflexivity. Qed.
Lemma marks_all p a : p "#"%char = true -> p "b"%char = true -> forallb p (marks a) = true.
Proof. intros. unfold marks. destruct (0 <=? a)%Z; apply forallb_repeat; assumption. Qed.

Lemma show_N_head_not p n : (forall c, is_digit c = true -> p c = false) -> match show_N n with [] => True | c :: _ => p c = false end.
Proof. intro H. destruct (show_N_cons n) as (c & s & E & Hc). rewrite E. apply H, Hc. Qed.

Lemma degreeInt_marked pre a n : forallb is_mark pre = true -> degreeInt (pre ++ spell a n) = Some n.
Proof.
  intro H. unfold degreeInt. rewrite spell_marks, app_assoc.
  rewrite (span_app_all is_mark (pre ++ marks a) (show_N n)).
  - cbn [snd]. rewrite span_all by apply show_N_digits. cbn [fst].
    destruct (show_N_cons n) as (c & s & E & _). rewrite E, <- E, parse_show_N. reflexivity.
  - rewrite forallb_app, H. apply marks_all; reflexivity.
  - apply show_N_head_not, mark_not_digit.
Qed.
Lemma degreeInt_spell a n : degreeInt (spell a n) = Some n.
Proof. apply (degreeInt_marked []). reflexivity. Qed.
Lemma degreeInt_star a n : degreeInt ("*"%char :: spell a n) = Some n.
Proof. apply (degreeInt_marked ["*"%char]). reflexivity. Qed.

Lemma count_repeat_same c n : count_char c (repeat c n) = n.
Proof. unfold count_char. induction n; cbn; [reflexivity|]. rewrite Ascii.eqb_refl. cbn. lia. Qed.
Lemma count_repeat_other c d n : Ascii.eqb c d = false -> count_char c (repeat d n) = 0.
Proof. intro H. unfold count_char. induction n; cbn; [reflexivity|]. rewrite H. exact IHn. Qed.
Lemma count_digits c n : is_digit c = false -> count_char c (show_N n) = 0.
Proof. intro H. apply count_char_not_in, digits_no_char; [exact H|apply show_N_digits]. Qed.

Lemma marks_count a : (Z.of_nat (count_char "#"%char (marks a)) - Z.of_nat (count_char "b"%char (marks a)) = a)%Z.
Proof.
  unfold marks. destruct (Z.leb_spec 0 a).
  - rewrite count_repeat_same, count_repeat_other by reflexivity. lia.
  - rewrite count_repeat_same, count_repeat_other by reflexivity. lia.
Qed.
Lemma spell_count a n : (Z.of_nat (count_char "#"%char (spell a n)) - Z.of_nat (count_char "b"%char (spell a n)) = a)%Z.
Proof. rewrite spell_marks, !count_char_app, !count_digits, !Nat.add_0_r by reflexivity. apply marks_count. Qed.

Lemma spell_inj a n b m : spell a n = spell b m -> a = b /\ n = m.
Proof.
  intro H. split.
  - rewrite <- (spell_count a n), <- (spell_count b m), H. reflexivity.
  - assert (Some n = Some m) by (rewrite <- (degreeInt_spell a n), <- (degreeInt_spell b m), H; reflexivity). congruence.
Qed.
Lemma spell_nil a n : spell a n <> [].
Proof. unfold spell. destruct (show_N_cons n) as (c & s & -> & _). intro H. apply app_eq_nil in H as [_ H]. discriminate. Qed.
Lemma spell_not_star a n d : spell a n <> "*"%char :: d.
Proof.
  rewrite spell_marks. unfold marks. destruct (show_N_cons n) as (c & s & E & Hc). rewrite E.
  destruct (0 <=? a)%Z; [destruct (Z.to_nat a)|destruct (Z.to_nat (- a))]; cbn [repeat app]; intro H; injection H as H _; subst; try discriminate; vm_compute in Hc; discriminate.
Qed.
Lemma spell_no_comma a n : char_in ","%char (spell a n) = false.
Proof.
  rewrite spell_marks, char_in_app. rewrite (digits_no_char ","%char (show_N n)); [|reflexivity|apply show_N_digits].
  rewrite orb_false_r. unfold marks. destruct (0 <=? a)%Z.
  - generalize (Z.to_nat a); induction n0; cbn; auto.
  - generalize (Z.to_nat (- a)); induction n0; cbn; auto.
Qed.
Lemma spell_chars p a n : p "#"%char = true -> p "b"%char = true -> (forall c, is_digit c = true -> p c = true) -> forallb p (spell a n) = true.
Proof.
  intros H1 H2 H3. rewrite spell_marks, forallb_app, marks_all by assumption. cbn.
  pose proof (show_N_digits n) as H. rewrite forallb_forall in *. auto.
Qed.

(** Whether a text is a degree. *)
Definition alt_of (d : str) : Z := (Z.of_nat (count_char "#"%char d) - Z.of_nat (count_char "b"%char d))%Z.
Definition num_of (d : str) : N := match degreeInt d with Some n => n | None => 0%N end.
Definition is_degree (d : str) : bool := str_eqb d (spell (alt_of d) (num_of d)).
Lemma is_degree_spell d : is_degree d = true -> d = spell (alt_of d) (num_of d).
Proof. apply str_eqb_eq. Qed.
Lemma num_spell a n : num_of (spell a n) = n.
Proof. unfold num_of. rewrite degreeInt_spell. reflexivity. Qed.
Lemma is_degree_of a n : is_degree (spell a n) = true.
Proof. unfold is_degree, alt_of. rewrite num_spell, spell_count. apply str_eqb_refl. Qed.

(** ** Lists *)

Lemma mem_In x l : mem x l = true <-> In x l.
Proof.
  unfold mem. rewrite existsb_exists. split.
  - intros (y & H & E). apply str_eqb_eq in E. subst. exact H.
  - intro H. exists x. split; [exact H|apply str_eqb_refl].
Qed.
Lemma mem_false x l : mem x l = false <-> ~ In x l.
Proof. rewrite <- mem_In. destruct (mem x l); split; congruence. Qed.

Lemma insert_perm k x l : Permutation (map snd (insert_by k x l)) (x :: map snd l).
Proof.
  induction l as [|(k', y) l IH]; cbn; [reflexivity|].
  destruct (k <? k')%N; cbn; [reflexivity|]. rewrite IH. apply perm_swap.
Qed.
Lemma keyed_some l : (forall d, In d l -> degreeInt d <> None) -> exists kl, keyed l = Some kl /\ map snd kl = l.
Proof.
  induction l as [|d l IH]; intro H; cbn [keyed]; [exists []; auto|].
  destruct (degreeInt d) eqn:E; [|exfalso; apply (H d); [left; reflexivity|exact E]].
  destruct IH as (kl & -> & E'); [intros; apply H; right; assumption|].
  exists ((n, d) :: kl). cbn. rewrite E'. auto.
Qed.
Lemma sorted_perm l : (forall d, In d l -> degreeInt d <> None) -> exists l', sorted_degrees l = Some l' /\ Permutation l' l.
Proof.
  intro H. destruct (keyed_some l H) as (kl & E & E'). unfold sorted_degrees. rewrite E. cbn.
  eexists. split; [reflexivity|]. rewrite <- E'. clear.
  assert (G : forall acc, Permutation (map snd (fold_left (fun acc '(k, x) => insert_by k x acc) kl acc)) (map snd kl ++ map snd acc)).
  { induction kl as [|(k, x) kl IH]; intro acc; cbn [fold_left map app]; [reflexivity|].
    rewrite IH, insert_perm. cbn. symmetry. apply Permutation_middle. }
  specialize (G []). rewrite app_nil_r in G. exact G.
Qed.

Lemma remove_app_l x a b : In x a -> remove x (a ++ b) = option_map (fun r => r ++ b) (remove x a).
Proof.
  induction a as [|y a IH]; intro H; [destruct H|]. cbn [remove app].
  destruct (str_eqb x y) eqn:E; [reflexivity|].
  destruct H as [->|H]; [rewrite str_eqb_refl in E; discriminate|].
  rewrite (IH H). destruct (remove x a); reflexivity.
Qed.
Lemma filter_id {A} (p : A -> bool) l : (forall x, In x l -> p x = true) -> filter p l = l.
Proof. induction l as [|x l IH]; intro H; [reflexivity|]. cbn. rewrite (H x) by (left; reflexivity). f_equal. apply IH. intros; apply H; right; assumption. Qed.

Lemma remove_filter x p l : NoDup l -> In x l -> p x = true ->
  remove x (filter p l) = Some (filter (fun d => p d && negb (str_eqb x d)) l).
Proof.
  induction l as [|y l IH]; intros ND Hin Hp; [destruct Hin|].
  inversion ND as [|? ? N1 N2]; subst. cbn [filter].
  destruct (str_eqb x y) eqn:E.
  - apply str_eqb_eq in E. subst y. rewrite Hp. cbn [andb negb remove]. rewrite str_eqb_refl. f_equal.
    clear - N1. induction l as [|z l IH]; [reflexivity|]. cbn [filter].
    assert (str_eqb x z = false) as -> by (apply str_eqb_neq; intro; subst; apply N1; left; reflexivity).
    cbn [negb]. rewrite andb_true_r. rewrite IH by (intro; apply N1; right; assumption). reflexivity.
  - destruct Hin as [->|Hin]; [rewrite str_eqb_refl in E; discriminate|].
    cbn [negb]. rewrite andb_true_r. destruct (p y).
    + cbn [remove]. rewrite E, (IH N2 Hin Hp). reflexivity.
    + apply IH; assumption.
Qed.

(** ** Leaving out degrees *)

Lemma omit_in_not o degs new b : ~ In o degs -> omit_in o degs new b = Some (new, b).
Proof.
  induction degs as [|d degs IH]; intro H; [reflexivity|]. cbn [omit_in].
  assert (str_eqb o d = false) as -> by (apply str_eqb_neq; intro; subst; apply H; left; reflexivity).
  apply IH. intro; apply H; right; assumption.
Qed.
Lemma omit_in_one o degs new b : NoDup degs -> In o degs ->
  omit_in o degs new b = match remove o new with None => None | Some new' => Some (new', true) end.
Proof.
  induction degs as [|d degs IH]; intros ND H; [destruct H|]. cbn [omit_in].
  inversion ND as [|? ? N1 N2]; subst.
  destruct (str_eqb o d) eqn:E.
  - apply str_eqb_eq in E. subst d. destruct (remove o new); [|reflexivity]. apply omit_in_not. exact N1.
  - destruct H as [->|H]; [rewrite str_eqb_refl in E; discriminate|]. apply IH; assumption.
Qed.

Lemma omit_all_spec degs omits : NoDup degs -> forall done stars, NoDup (done ++ omits) ->
  (forall o, In o omits -> exists n, degreeInt o = Some n) ->
  exists stars', omit_all omits degs (filter (fun d => negb (mem d done)) degs ++ stars) =
                 Some (filter (fun d => negb (mem d (done ++ omits))) degs ++ stars ++ stars')
    /\ (forall d, In d stars' <-> exists o n, In o omits /\ ~ In o degs /\ degreeInt o = Some n /\ d = "*"%char :: show_N n).
Proof.
  intro ND. induction omits as [|o os IH]; intros done stars ND' Hd.
  - exists []. rewrite !app_nil_r. cbn [omit_all]. split; [reflexivity|]. cbn. split; [tauto|intros (? & ? & [] & _)].
  - cbn [omit_all].
    assert (Ho : ~ In o done) by (intro Hi; apply (NoDup_remove_2 _ _ _ ND'), in_or_app; left; exact Hi).
    assert (ND2 : NoDup ((done ++ [o]) ++ os)) by (rewrite <- app_assoc; exact ND').
    assert (Hd2 : forall o', In o' os -> exists n, degreeInt o' = Some n) by (intros; apply Hd; right; assumption).
    assert (F : forall d, mem d (done ++ o :: os) = mem d ((done ++ [o]) ++ os)) by (intro; rewrite <- app_assoc; reflexivity).
    destruct (mem o degs) eqn:M.
    + apply mem_In in M. rewrite (omit_in_one o degs _ false ND M).
      rewrite remove_app_l by (apply filter_In; split; [exact M|apply negb_true_iff, mem_false, Ho]).
      rewrite remove_filter; [|exact ND|exact M|apply negb_true_iff, mem_false, Ho]. cbn [option_map].
      assert (E : filter (fun d => negb (mem d done) && negb (str_eqb o d)) degs = filter (fun d => negb (mem d (done ++ [o]))) degs).
      { apply filter_ext. intro d. unfold mem. rewrite existsb_app. cbn [existsb]. rewrite orb_false_r, negb_orb, (str_eqb_sym o d). reflexivity. }
      rewrite E. destruct (IH (done ++ [o]) stars ND2 Hd2) as (st & E1 & E2). exists st. rewrite E1. split.
      * do 2 f_equal. apply filter_ext. intro. rewrite F. reflexivity.
      * intro d. rewrite E2. split; intros (o' & n & H & R); exists o', n; (split; [|exact R]).
        -- right; exact H.
        -- destruct H as [<-|H]; [exfalso; apply (proj1 R), M|exact H].
    + apply mem_false in M. rewrite (omit_in_not o degs _ false M).
      destruct (Hd o (or_introl eq_refl)) as (n & En). rewrite En. rewrite <- app_assoc.
      assert (E : filter (fun d => negb (mem d done)) degs = filter (fun d => negb (mem d (done ++ [o]))) degs).
      { apply filter_ext_in. intros d Hin. unfold mem. rewrite existsb_app. cbn [existsb].
        assert (str_eqb d o = false) as -> by (apply str_eqb_neq; intro; subst; auto). cbn. rewrite orb_false_r. reflexivity. }
      rewrite E. destruct (IH (done ++ [o]) (stars ++ ["*"%char :: show_N n]) ND2 Hd2) as (st & E1 & E2).
      exists (("*"%char :: show_N n) :: st). rewrite E1. split.
      * f_equal. f_equal; [|rewrite <- app_assoc; reflexivity]. apply filter_ext. intro. rewrite F. reflexivity.
      * intro d. cbn [In]. rewrite E2. split.
        -- intros [<-|(o' & n' & H & R)]; [exists o, n; repeat split; auto|exists o', n'; split; [right; exact H|exact R]].
        -- intros (o' & n' & [<-|H] & R & R2 & R3); [left; congruence|right; exists o', n'; auto].
Qed.

(** ** Altering degrees *)

Lemma set_nth_app pre x y l : set_nth (List.length pre) x (pre ++ y :: l) = Some (pre ++ x :: l).
Proof. induction pre as [|z pre IH]; cbn; [reflexivity|]. rewrite IH. reflexivity. Qed.

Definition altered (a : str) (f : str -> str) (d : str) : str := if (num_of a =? num_of d)%N then a else f d.
Lemma alter_in_spec a f degs : degreeInt a <> None -> (forall d, In d degs -> degreeInt d <> None) -> forall pre,
  alter_in a (List.length pre) degs (pre ++ map f degs) = Some (pre ++ map (altered a f) degs).
Proof.
  intros Ha. induction degs as [|d degs IH]; intros Hd pre; [reflexivity|]. cbn [alter_in map].
  unfold altered at 1, num_of.
  destruct (degreeInt a) as [x|] eqn:Ea; [|congruence].
  destruct (degreeInt d) as [y|] eqn:Ed; [|exfalso; apply (Hd d); [left; reflexivity|exact Ed]].
  assert (Hd' : forall d0, In d0 degs -> degreeInt d0 <> None) by (intros; apply Hd; right; assumption).
  destruct (x =? y)%N.
  - rewrite set_nth_app. specialize (IH Hd' (pre ++ [a])). rewrite app_length in IH. cbn in IH. rewrite Nat.add_1_r in IH.
    rewrite <- !app_assoc in IH. exact IH.
  - specialize (IH Hd' (pre ++ [f d])). rewrite app_length in IH. cbn in IH. rewrite Nat.add_1_r in IH.
    rewrite <- !app_assoc in IH. exact IH.
Qed.
Lemma alter_all_spec alters degs : (forall d, In d (alters ++ degs) -> degreeInt d <> None) -> forall f,
  exists g, alter_all alters degs (map f degs) = Some (map g degs)
    /\ (forall d, In d degs ->
        (exists a, In a alters /\ num_of a = num_of d /\ g d = a)
        \/ ((forall a, In a alters -> num_of a <> num_of d) /\ g d = f d)).
Proof.
  induction alters as [|a al IH]; intros H f; cbn [alter_all].
  - exists f. split; [reflexivity|]. intros d Hd. right. split; [intros ? []|reflexivity].
  - assert (Ea : alter_in a 0 degs (map f degs) = Some (map (altered a f) degs)).
    { apply (alter_in_spec a f degs) with (pre := []); intros; apply H; cbn; rewrite ?in_app_iff; auto. }
    rewrite Ea. destruct (IH ltac:(intros; apply H; right; assumption) (altered a f)) as (g & E & G).
    exists g. split; [exact E|]. intros d Hd. destruct (G d Hd) as [(b & Hb & R)|(Hn & R)].
    + left. exists b. split; [right; exact Hb|exact R].
    + unfold altered in R. destruct (N.eqb_spec (num_of a) (num_of d)) as [En|En].
      * left. exists a. split; [left; reflexivity|auto].
      * right. split; [|exact R]. intros b [<-|Hb]; [exact En|apply Hn, Hb].
Qed.

(** ** Reading the list of degrees *)

Definition is_star (d : str) : Prop := exists d', d = "*"%char :: d'.
Lemma removals_In l d : In d (removals l) <-> In ("*"%char :: d) l.
Proof.
  unfold removals. rewrite in_flat_map. split.
  - intros (x & Hx & Hd). destruct x as [|c x]; [destruct Hd|]. destruct c as [[] [] [] [] [] [] [] []]; cbn in Hd; try tauto.
    destruct Hd as [->|[]]. exact Hx.
  - intro H. exists ("*"%char :: d). split; [exact H|left; reflexivity].
Qed.

Lemma drop_In_other x y l : x <> y -> (In y (drop x l) <-> In y l).
Proof.
  intro N. unfold drop. induction l as [|z l IH]; [reflexivity|]. cbn [remove].
  destruct (str_eqb x z) eqn:E.
  - apply str_eqb_eq in E. subst z. cbn. tauto.
  - destruct (remove x l) as [r|] eqn:R; [|reflexivity]. cbn. rewrite <- IH. reflexivity.
Qed.
Lemma drop_count x l y : count_occ str_eq_dec (drop x l) y = count_occ str_eq_dec l y - (if str_eq_dec x y then 1 else 0).
Proof.
  unfold drop. induction l as [|z l IH]; [reflexivity|]. cbn [remove].
  destruct (str_eqb x z) eqn:E.
  - apply str_eqb_eq in E. subst z. cbn [count_occ]. destruct (str_eq_dec x y); lia.
  - apply str_eqb_neq in E. destruct (remove x l) as [r|] eqn:R; cbn [count_occ].
    + destruct (str_eq_dec z y); [destruct (str_eq_dec x y); [congruence|]; lia|exact IH].
    + destruct (str_eq_dec z y); [destruct (str_eq_dec x y); [congruence|]; lia|exact IH].
Qed.

Lemma drops_fst rs : forall i l,
  fst (fold_left (fun '(i, l) r => (drop r i, drop ("*"%char :: r) l)) rs (i, l)) = fold_left (fun i r => drop r i) rs i.
Proof. induction rs as [|r rs IH]; intros; [reflexivity|]. cbn [fold_left]. apply IH. Qed.
Lemma drops_snd rs : forall i l,
  snd (fold_left (fun '(i, l) r => (drop r i, drop ("*"%char :: r) l)) rs (i, l)) = fold_left (fun i r => drop ("*"%char :: r) i) rs l.
Proof. induction rs as [|r rs IH]; intros; [reflexivity|]. cbn [fold_left]. apply IH. Qed.

Lemma drops_count (g : str -> str) rs : forall l y,
  count_occ str_eq_dec (fold_left (fun i r => drop (g r) i) rs l) y = count_occ str_eq_dec l y - count_occ str_eq_dec (map g rs) y.
Proof.
  induction rs as [|r rs IH]; intros l y; cbn [fold_left map count_occ]; [lia|].
  rewrite IH, drop_count. destruct (str_eq_dec (g r) y); lia.
Qed.

Lemma removals_count l y : count_occ str_eq_dec (map (cons "*"%char) (removals l)) ("*"%char :: y) = count_occ str_eq_dec l ("*"%char :: y).
Proof.
  induction l as [|d l IH]; [reflexivity|]. change (removals (d :: l)) with ((match d with "*"%char :: d' => [d'] | _ => [] end : list str) ++ removals l).
  rewrite map_app, count_occ_app. unfold str in *. rewrite IH. cbn [count_occ].
  destruct d as [|c d]; [cbn; destruct (str_eq_dec [] ("*"%char :: y)); [discriminate|reflexivity]|].
  destruct (ascii_dec c "*"%char) as [->|Hc].
  - cbn [map count_occ]. destruct (str_eq_dec ("*"%char :: d) ("*"%char :: y)); reflexivity.
  - destruct (str_eq_dec (c :: d) ("*"%char :: y)) as [Q|Q]; [congruence|].
    destruct c as [[] [] [] [] [] [] [] []]; try reflexivity. exfalso; apply Hc; reflexivity.
Qed.

Lemma stars_gone l d : In d (fold_left (fun i r => drop ("*"%char :: r) i) (removals l) l) <-> In d l /\ ~ is_star d.
Proof.
  rewrite !(count_occ_In str_eq_dec), (drops_count (cons "*"%char)).
  assert (Hs : is_star d \/ ~ is_star d).
  { destruct d as [|c d]; [right; intros (? & Q); discriminate|]. destruct (ascii_dec c "*"%char) as [->|Hc]; [left; exists d; reflexivity|right; intros (? & Q); congruence]. }
  destruct Hs as [(y & ->)|Hs].
  - rewrite removals_count. split; [lia|]. intros [_ H]. exfalso; apply H; exists y; reflexivity.
  - assert (E : count_occ str_eq_dec (map (cons "*"%char) (removals l)) d = 0).
    { apply count_occ_not_In. intro H. apply in_map_iff in H as (y & <- & _). apply Hs. exists y; reflexivity. }
    unfold str in *. rewrite E. split; [intro; split; [lia|exact Hs]|intros [? _]; lia].
Qed.

Lemma implied_left rs imp d : NoDup imp -> (In d (fold_left (fun i r => drop r i) rs imp) <-> In d imp /\ ~ In d rs).
Proof.
  intro ND. rewrite !(count_occ_In str_eq_dec).
  rewrite (drops_count (fun x => x)), map_id.
  pose proof (proj1 (NoDup_count_occ str_eq_dec imp) ND d). lia.
Qed.

(** The degrees that a text lists, as a set. *)
Lemma listed_In sh degrees imp d :
  assoc_str sh shorthand_to_degrees = Some imp -> sh <> [] -> imp <> [] -> NoDup imp ->
  (In d (listed_degrees sh degrees) <->
   (In d (degree_list degrees) /\ ~ is_star d) \/ (In d imp /\ ~ In ("*"%char :: d) (degree_list degrees))).
Proof.
  intros E Hs Hi ND. unfold listed_degrees. rewrite E.
  destruct sh as [|c sh]; [congruence|]. destruct imp as [|i0 imp]; [congruence|].
  set (l := degree_list degrees). set (im := i0 :: imp) in *.
  pose proof (drops_fst (removals l) im l) as E1. pose proof (drops_snd (removals l) im l) as E2.
  destruct (fold_left _ (removals l) (im, l)) as [i' l']. cbn [fst snd] in E1, E2. subst i' l'.
  rewrite in_app_iff, stars_gone, (implied_left _ _ _ ND), removals_In. reflexivity.
Qed.

(** ** Finding the kind *)

Lemma uniq_In x l : In x (uniq l) <-> In x l.
Proof.
  induction l as [|y l IH]; [reflexivity|]. cbn [uniq]. destruct (mem y l) eqn:M.
  - rewrite IH. cbn. split; [tauto|]. intros [<-|H]; [apply mem_In, M|exact H].
  - cbn. rewrite IH. reflexivity.
Qed.
Lemma diff_In x a b : In x (diff a b) <-> In x a /\ ~ In x b.
Proof. unfold diff. rewrite filter_In, negb_true_iff, mem_false. reflexivity. Qed.
Lemma inter_In x a b : In x (inter a b) <-> In x a /\ In x b.
Proof. unfold inter. rewrite filter_In, mem_In. reflexivity. Qed.

(** A state of the search that fits the degrees. *)
Definition fits (types : list (str * str)) (degs : list str) (st : str * nat * list str) : Prop :=
  let '(kind, most, rest) := st in
  exists n, In (kind, n) types /\ (forall d, In d (kind_degrees n) -> In d degs)
    /\ (forall d, In d rest <-> In d degs /\ ~ In d (kind_degrees n)).

Lemma try_fits types degs st kn : In kn types ->
  (fits types degs st \/ st = ([], 0, [])) -> fits types degs (try_kind degs st kn) \/ try_kind degs st kn = ([], 0, []).
Proof.
  intros Hk Hst. destruct st as [[kind most] rest]. unfold try_kind. destruct kn as [k n]. cbn [fst snd].
  destruct (diff (uniq (kind_degrees n)) (uniq degs)) eqn:D; cbn [negb]; [|exact Hst].
  assert (F : fits types degs (k, List.length (inter (uniq (kind_degrees n)) (uniq degs)), diff (uniq degs) (uniq (kind_degrees n)))).
  { exists n. split; [exact Hk|]. split.
    - intros d Hd. destruct (mem d degs) eqn:M; [apply mem_In, M|]. exfalso.
      assert (In d []) as []. rewrite <- D. apply diff_In. rewrite !uniq_In. split; [exact Hd|apply mem_false, M].
    - intro d. rewrite diff_In, !uniq_In. reflexivity. }
  destruct (Nat.ltb most _); [left; exact F|].
  destruct (Nat.eqb _ most && _); [left; exact F|exact Hst].
Qed.
Lemma find_fits types degs : In (S_ "1") degs -> (forall kn, In kn types -> fst kn <> []) -> In (S_ "pedal", S_ "1") types ->
  exists k m r, find_kind types degs = (k, m, r) /\ k <> [] /\ fits types degs (k, m, r).
Proof.
  intros H1 Hne Hp. unfold find_kind.
  assert (G : forall l st, incl l types -> (fits types degs st \/ st = ([], 0, [])) -> (In (S_ "pedal", S_ "1") l \/ (fits types degs st /\ snd (fst st) <> 0)) ->
            fits types degs (fold_left (try_kind degs) l st) /\ snd (fst (fold_left (try_kind degs) l st)) <> 0).
  { induction l as [|kn l IH]; intros st Hi Hs Hl; cbn [fold_left].
    - destruct Hl as [[]|Hl]. exact Hl.
    - apply IH; [intros x Hx; apply Hi; right; exact Hx|apply try_fits; [apply Hi; left; reflexivity|exact Hs]|].
      assert (Mono : forall st, fits types degs st /\ snd (fst st) <> 0 -> fits types degs (try_kind degs st kn) /\ snd (fst (try_kind degs st kn)) <> 0).
      { intros s (F & N). assert (N' : snd (fst (try_kind degs s kn)) <> 0).
        { destruct s as [[kd most] rest]. cbn in N. unfold try_kind. cbv zeta. destruct (negb _); [exact N|].
          match goal with |- context [Nat.ltb most ?x] => generalize x end. intro q.
          destruct (Nat.ltb_spec most q); [cbn [fst snd]; lia|].
          destruct (Nat.eqb_spec q most); cbn [andb]; [|exact N].
          destruct (Nat.ltb _ _); cbn [fst snd]; [lia|exact N]. }
        split; [|exact N'].
        destruct (try_fits types degs s kn (Hi _ (or_introl eq_refl)) (or_introl F)) as [G|G]; [exact G|].
        rewrite G in N'. cbn in N'. congruence. }
      destruct Hl as [[->|Hl]|Hl].
      + right. destruct (try_fits types degs st (S_ "pedal", S_ "1") (Hi _ (or_introl eq_refl)) Hs) as [F|F].
        * split; [exact F|]. destruct st as [[kd most] rest].
          unfold try_kind. cbn [fst snd].
          change (kind_degrees (S_ "1")) with [S_ "1"]. change (uniq [S_ "1"]) with [S_ "1"].
          assert (M : mem (S_ "1") (uniq degs) = true) by (apply mem_In, uniq_In, H1).
          unfold diff at 1, inter. cbn [filter]. rewrite M. cbn [negb filter List.length fst snd].
          destruct (Nat.ltb_spec most 1); [cbn; lia|].
          destruct (Nat.eqb_spec 1 most); cbn [andb]; [|cbn; lia]. destruct (Nat.ltb _ _); cbn; lia.
        * exfalso. revert F. destruct st as [[kd most] rest]. unfold try_kind. cbn [fst snd].
          change (kind_degrees (S_ "1")) with [S_ "1"]. change (uniq [S_ "1"]) with [S_ "1"].
          assert (M : mem (S_ "1") (uniq degs) = true) by (apply mem_In, uniq_In, H1).
          unfold diff at 1, inter. cbn [filter]. rewrite M. cbn [negb filter List.length fst snd].
          destruct (Nat.ltb_spec most 1); [intro Q; injection Q; intros; discriminate|].
          destruct (Nat.eqb_spec 1 most); cbn [andb]; [|intro Q; injection Q; intros; lia].
          destruct (Nat.ltb _ _); intro Q; injection Q; intros; lia.
      + left. exact Hl.
      + right. apply Mono, Hl. }
  destruct (G types ([], 0, []) (incl_refl _) (or_intror eq_refl) (or_introl Hp)) as (F & _).
  destruct (fold_left (try_kind degs) types ([], 0, [])) as [[k m] r] eqn:E.
  exists k, m, r. split; [reflexivity|]. split; [|exact F].
  destruct F as (n & Hn & _). apply (Hne _ Hn).
Qed.

Lemma added_spec l : (forall d, In d l -> degreeInt d <> None) ->
  exists ms, added l = Some ms
    /\ (forall m, In m ms <-> exists d, In d l /\ num_of d <> 1%N /\ m = Mod Add (num_of d) (Some (alt_of d))).
Proof.
  induction l as [|d l IH]; intro H; cbn [added].
  - exists []. split; [reflexivity|]. intro m. cbn. split; [tauto|intros (? & [] & _)].
  - destruct (IH ltac:(intros; apply H; right; assumption)) as (ms & -> & Hm).
    destruct (degreeInt d) as [n|] eqn:E; [|exfalso; apply (H d); [left; reflexivity|exact E]].
    eexists. split; [reflexivity|]. intro m.
    assert (En : num_of d = n) by (unfold num_of; rewrite E; reflexivity).
    destruct (N.eqb_spec n 1) as [E1|E1].
    + rewrite Hm. split; intros (d' & Hd & R); exists d'; [split; [right; exact Hd|exact R]|].
      destruct Hd as [<-|Hd]; [exfalso; apply (proj1 R); congruence|split; [exact Hd|exact R]].
    + cbn [In]. rewrite Hm. split.
      * intros [<-|(d' & Hd & R)]; [exists d; rewrite En; split; [left; reflexivity|split; [exact E1|reflexivity]]|exists d'; split; [right; exact Hd|exact R]].
      * intros (d' & [<-|Hd] & R & ->); [left; rewrite En; reflexivity|right; exists d'; auto].
Qed.
