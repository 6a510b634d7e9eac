(** C117, C118: chord symbols written as Harte texts and read back. *)
From Coq Require Import List Ascii String Arith NArith ZArith Lia Bool Permutation FinFun.
From Verif Require Import PyStr PyStrProofs ClefModel HarteModel HarteProofs HarteSpec.
Import ListNotations.

(** ** Writing the degrees *)

(** What is required of the modifications: they are about degrees above the root; those
    that add or alter say by how much; those that take away or alter name an unaltered
    degree of the kind, each another one; and not both kinds occur. *)
Definition mods_ok (types : list (str * str)) (k : str) (ms : list cmod) : Prop :=
  (forall m, In m ms -> (2 <= m_degree m)%N /\ (m_type m <> Subtract -> m_interval m <> None)
                        /\ (m_type m = Subtract -> alteration m = 0%Z)
                        /\ (m_type m <> Add -> kind_has types k (spell 0 (m_degree m))))
  /\ NoDup (map m_degree (filter is_subtract ms)) /\ NoDup (map m_degree (filter is_alter ms))
  /\ ((forall m, In m ms -> m_type m <> Alter) \/ (forall m, In m ms -> m_type m <> Subtract)).

(** The degrees written for a list of modifications. *)
Definition degs_of (degrees : str) (ms : list cmod) : option str :=
  match ms with
  | [] => Some degrees
  | _ => modifyDegrees degrees (map mod_degree (filter is_add ms)) (map mod_degree (filter is_subtract ms)) (map mod_degree (filter is_alter ms))
  end.
(** The part of the writer that comes after the simplification. *)
Definition body (noResult : str) (c : chord) : option str :=
  let root := hartifyRoot (c_root c) in
  let bass := hartifyBass (c_bass c) (c_root c) in
  let sd :=
    if existsb is_alter (c_mods c) then option_map (fun d => ([], d)) (assoc_str (c_kind c) kind_to_degrees)
    else assoc_str (c_kind c) kind_to_shorthand in
  match sd with
  | None => Some noResult
  | Some (shorthand, degrees) =>
      match degs_of degrees (c_mods c) with
      | None => None
      | Some ds =>
          Some (root
                ++ (match shorthand, ds with
                    | [], [] => []
                    | _, _ => S_ ":" ++ shorthand ++ match ds with [] => [] | _ => S_ "(" ++ ds ++ S_ ")" end
                    end)
                ++ match bass with [] => [] | _ => S_ "/" ++ bass end)
      end
  end.
Lemma write_body nr c0 : makeHarteFromChordSymbol nr (Sym c0) = match simplify c0 with None => None | Some c => body nr c end.
Proof.
  unfold makeHarteFromChordSymbol. destruct (simplify c0) as [c|]; [|reflexivity]. unfold body, degs_of. destruct (c_mods c); reflexivity.
Qed.

Lemma body_text nr c sh degs ds o : p_step (c_root c) < 7 -> (forall d, In d ds -> listable d) ->
  hartifyBass (c_bass c) (c_root c) = match o with None => [] | Some d => d end -> (o <> Some []) ->
  (if existsb is_alter (c_mods c) then option_map (fun d => ([], d)) (assoc_str (c_kind c) kind_to_degrees)
   else assoc_str (c_kind c) kind_to_shorthand) = Some (sh, degs) ->
  degs_of degs (c_mods c) = Some (join (S_ ",") ds) ->
  body nr c = Some (text (c_root c) sh ds o).
Proof.
  intros Hr Hl Hb Ho Hsd Hds. unfold body. rewrite Hsd, Hds, (hartifyRoot_note _ Hr), Hb. f_equal. unfold text. f_equal. f_equal.
  - destruct ds as [|d ds]; [cbn [join]; destruct sh; [reflexivity|rewrite app_nil_r; reflexivity]|].
    assert (N : join (S_ ",") (d :: ds) <> []) by (apply join_nonempty; [discriminate|]; intros x Hx; apply listable_chars, Hl, Hx).
    destruct (join (S_ ",") (d :: ds)) eqn:E; [congruence|]. rewrite <- E. destruct sh; reflexivity.
  - destruct o as [[|x d]|]; [exfalso; apply Ho; reflexivity|reflexivity|reflexivity].
Qed.

Lemma filter_type p t ms m : (forall x, p x = true <-> m_type x = t) -> (In m (filter p ms) <-> In m ms /\ m_type m = t).
Proof. intro H. rewrite filter_In, H. reflexivity. Qed.
Lemma is_add_t x : is_add x = true <-> m_type x = Add.
Proof. unfold is_add. destruct (m_type x); split; congruence. Qed.
Lemma is_subtract_t x : is_subtract x = true <-> m_type x = Subtract.
Proof. unfold is_subtract. destruct (m_type x); split; congruence. Qed.
Lemma is_alter_t x : is_alter x = true <-> m_type x = Alter.
Proof. unfold is_alter. destruct (m_type x); split; congruence. Qed.

(** A degree that no modification takes away. *)
Definition kept (e : str * str) : bool :=
  match assoc_str (fst e) kind_to_shorthand with
  | Some ([], s) => existsb (fun d => str_eqb d (S_ "1") || negb (alt_of d =? 0)%Z) (degree_list s)
  | _ => true
  end.
Lemma kept_ok : forallb kept usual = true.
Proof. vm_compute. reflexivity. Qed.
(** What the row of a kind gives. *)
Lemma row_facts k n : In (k, n) usual ->
  let D := m21_degrees n in
  (forall d, In d D -> is_degree d = true) /\ (forall x y, In x D -> In y D -> num_of x = num_of y -> x = y) /\ In (S_ "1") D
  /\ (exists s, assoc_str k kind_to_degrees = Some s /\ (forall d, In d D <-> d = S_ "1" \/ In d (degree_list s)) /\ s <> [])
  /\ (exists sh s, assoc_str k kind_to_shorthand = Some (sh, s) /\ (sh = [] -> exists d, In d (degree_list s) /\ (d = S_ "1" \/ alt_of d <> 0%Z)) /\ (forall d, In d D <-> d = S_ "1" \/ In d (degree_list s) \/ In d (implied sh))
       /\ NoDup (degree_list s ++ implied sh) /\ (sh = [] \/ exists imp, In (sh, imp) shorthands)).
Proof.
  intros H D. pose proof rows_ok as R. rewrite forallb_forall in R. specialize (R _ H). unfold row_ok in R. cbn [fst snd] in R. fold D in R.
  rewrite !andb_true_iff in R. destruct R as ((((R1 & R2) & R3) & R4) & R5).
  split; [apply forallb_forall, R1|]. split; [apply no_dup_num_eq, R2|]. split; [apply mem_In, R3|]. split.
  - destruct (assoc_str k kind_to_degrees) as [s|]; [|discriminate]. apply andb_true_iff in R4 as (R4 & R6). exists s. split; [reflexivity|].
    split; [intro d; rewrite <- (same_set_In _ _ d R4); cbn [In]; split; intros [Q|Q]; auto|]. destruct s; [discriminate|congruence].
  - destruct (assoc_str k kind_to_shorthand) as [[sh s]|] eqn:Ea; [|discriminate]. rewrite !andb_true_iff in R5. destruct R5 as ((R5 & R6) & R7).
    exists sh, s. split; [reflexivity|]. split.
    { intros ->. pose proof kept_ok as K. rewrite forallb_forall in K. specialize (K _ H). unfold kept in K. cbn [fst] in K. rewrite Ea in K.
      apply existsb_exists in K as (d & Hd & K). exists d. split; [exact Hd|]. apply orb_true_iff in K as [K|K]; [left; apply str_eqb_eq, K|right].
      apply negb_true_iff, Z.eqb_neq in K. exact K. }
    split.
    + intro d. rewrite <- (same_set_In _ _ d R5). cbn [In]. rewrite in_app_iff. split; intros [Q|Q]; auto.
    + split; [apply no_dup_NoDup, R6|]. destruct sh as [|c sh]; [left; reflexivity|right].
      destruct (assoc_str (c :: sh) shorthands) as [imp|] eqn:E; [|discriminate]. exists imp. apply assoc_shorthands, E.
Qed.

Lemma stands_implied sh ds d : (sh = [] \/ exists imp, In (sh, imp) shorthands) ->
  (stands_for sh ds d <-> d = S_ "1" \/ (In d ds /\ forall d', d <> "*"%char :: d') \/ (In d (implied sh) /\ ~ In ("*"%char :: d) ds)).
Proof.
  intro H. unfold stands_for, implied. split; (intros [Q|[Q|Q]]; [auto|auto|right; right]).
  - destruct Q as (imp & Hi & Q). destruct (shorthands_unique _ _ Hi) as (-> & _). exact Q.
  - destruct H as [->|(imp & Hi)]; [destruct Q as ([] & _)|]. destruct (shorthands_unique _ _ Hi) as (E & _). rewrite E in Q. exists imp. auto.
Qed.

Lemma nodup_app_l {A} (l1 l2 : list A) : NoDup (l1 ++ l2) -> NoDup l1.
Proof.
  induction l1 as [|x l IH]; intro ND; [constructor|]. cbn in ND. inversion ND as [|? ? N1 N2]; subst.
  constructor; [intro Q; apply N1, in_or_app; left; exact Q|exact (IH N2)].
Qed.
Lemma nodup_map_eq {A B} (f : A -> B) l x y : NoDup (map f l) -> In x l -> In y l -> f x = f y -> x = y.
Proof.
  induction l as [|z l IH]; intros ND Hx Hy E; [destruct Hx|]. cbn in ND. inversion ND as [|? ? N1 N2]; subst.
  destruct Hx as [<-|Hx], Hy as [<-|Hy]; [reflexivity| | |apply IH; assumption]; exfalso; apply N1, in_map_iff; eauto.
Qed.

Lemma one_spell : S_ "1" = spell 0 1.
Proof. reflexivity. Qed.

Lemma write_core types nr c n o :
  table_ok types -> In (c_kind c, n) usual -> p_step (c_root c) < 7 -> mods_ok types (c_kind c) (c_mods c) ->
  bass_reads (c_root c) o (c_bass c) -> hartifyBass (c_bass c) (c_root c) = match o with None => [] | Some d => d end ->
  exists sh ds, body nr c = Some (text (c_root c) sh ds o)
    /\ (sh <> [] \/ ds <> []) /\ (sh = [] \/ exists imp, In (sh, imp) shorthands)
    /\ (forall d, In d ds -> (exists a n, d = spell a n /\ (n = 1%N -> a = 0%Z)) \/ (sh <> [] /\ exists a n, d = "*"%char :: spell a n))
    /\ forall d, stands_for sh ds d <-> has types c d.
Proof.
  intros T Hk Hr (M1 & M2 & M3 & M4) Hb Ehb.
  assert (Ho : o <> Some []).
  { intros ->. destruct Hb as (x & a & _ & E & _). symmetry in E. exact (spell_nil _ _ E). }
  assert (KH : forall d, kind_has types (c_kind c) d <-> In d (m21_degrees n)) by (intro; apply kind_has_usual; assumption).
  destruct (row_facts _ _ Hk) as (D1 & D2 & D3 & (s & Es & Ds & Ns) & (sh & s2 & Esh & Nem & Dsh & ND & Hsh)).
  set (D := m21_degrees n) in *.
  assert (D4 : forall d, In d D -> exists a x, d = spell a x /\ (x = 1%N -> a = 0%Z)).
  { intros d Hd. exists (alt_of d), (num_of d). split; [apply is_degree_spell, D1, Hd|]. intro E.
    assert (d = S_ "1") by (apply D2; [exact Hd|exact D3|exact E]). subst d. reflexivity. }
  assert (D5 : forall a b x, In (spell a x) D -> In (spell b x) D -> a = b).
  { intros a b x Ha Hb'. apply (D2 _ _ Ha) in Hb'; [apply spell_inj in Hb' as (E & _); exact E|rewrite !num_spell; reflexivity]. }
  set (ms := c_mods c) in *.
  assert (Adds : forall d, In d (map mod_degree (filter is_add ms)) <-> exists m, In m ms /\ m_type m = Add /\ d = spell (alteration m) (m_degree m)).
  { intro d. rewrite in_map_iff. split.
    - intros (m & <- & Hm). apply (filter_type _ _ _ _ is_add_t) in Hm as (Hm & Ht). exists m. rewrite mod_degree_spell. auto.
    - intros (m & Hm & Ht & ->). exists m. rewrite mod_degree_spell. split; [reflexivity|]. apply (filter_type _ _ _ _ is_add_t). auto. }
  assert (AddsL : forall d, In d (map mod_degree (filter is_add ms)) -> exists a x, d = spell a x /\ (x = 1%N -> a = 0%Z)).
  { intros d Hd. apply Adds in Hd as (m & Hm & _ & ->). exists (alteration m), (m_degree m). split; [reflexivity|].
    intro E. pose proof (proj1 (M1 m Hm)). lia. }
  assert (One : forall m a, In m ms -> S_ "1" <> spell a (m_degree m)).
  { intros m a Hm Q. rewrite one_spell in Q. apply spell_inj in Q as (_ & Q). pose proof (proj1 (M1 m Hm)). lia. }
  destruct (existsb is_alter ms) eqn:NA.
  2: { (* no alterations *)
    clear M4. assert (M4 : forall m, In m ms -> m_type m <> Alter).
    { intros m Hm Ht. apply is_alter_t in Ht. enough (existsb is_alter ms = true) by congruence. apply existsb_exists. exists m. auto. }
    assert (FA : filter is_alter ms = []).
    { destruct (filter is_alter ms) as [|m l] eqn:E; [reflexivity|]. assert (In m (filter is_alter ms)) as Hm by (rewrite E; left; reflexivity).
      apply (filter_type _ _ _ _ is_alter_t) in Hm as (Hm & Ht). exfalso. exact (M4 m Hm Ht). }
    set (E := degree_list s2) in *.
    assert (EL : forall d, In d E -> exists a x, d = spell a x /\ (x = 1%N -> a = 0%Z)) by (intros d Hd; apply D4, Dsh; auto).
    destruct ms as [|m0 ms0] eqn:Ems.
    + exists sh, E. split; [|split; [destruct sh; [right|left; discriminate]; destruct (Nem eq_refl) as (e & He & _); intro Q; rewrite Q in He; destruct He|split; [exact Hsh|split]]].
      * apply (body_text nr c sh s2 E o Hr).
        -- intros d Hd. destruct (EL d Hd) as (a & x & -> & _). exists a, x. left; reflexivity.
        -- exact Ehb.
        -- exact Ho.
        -- fold ms. rewrite Ems. exact Esh.
        -- fold ms. rewrite Ems. cbn [degs_of]. f_equal. unfold E, degree_list. destruct s2; [reflexivity|]. symmetry. apply join_split.
      * intros d Hd. left. apply EL, Hd.
      * intro d. rewrite (stands_implied sh E d Hsh). unfold has. fold ms. rewrite Ems, KH, Dsh. split.
        -- intros [H|[(H & _)|(H & _)]]; left; (split; [auto|intros m a []]).
        -- intros [([H|[H|H]] & _)|[(m & [] & _)|(m & a & [] & _)]]; [auto| |].
           ++ right; left. split; [exact H|]. intros d' ->. destruct (EL _ H) as (a & x & Q & _). exact (spell_not_star _ _ _ (eq_sym Q)).
           ++ right; right. split; [exact H|]. intro Q. destruct (EL _ Q) as (a & x & Q' & _). exact (spell_not_star _ _ _ (eq_sym Q')).
    + rewrite <- Ems in *. assert (Hne : ms <> []) by (rewrite Ems; discriminate). clear m0 ms0 Ems.
      set (om := map mod_degree (filter is_subtract ms)).
      assert (Om : forall o', In o' om <-> exists m, In m ms /\ m_type m = Subtract /\ o' = spell 0 (m_degree m)).
      { intro o'. unfold om. rewrite in_map_iff. split.
        - intros (m & <- & Hm). apply (filter_type _ _ _ _ is_subtract_t) in Hm as (Hm & Ht). exists m. rewrite mod_degree_spell.
          rewrite (proj1 (proj2 (proj2 (M1 m Hm))) Ht). auto.
        - intros (m & Hm & Ht & ->). exists m. rewrite mod_degree_spell, (proj1 (proj2 (proj2 (M1 m Hm))) Ht). split; [reflexivity|]. apply (filter_type _ _ _ _ is_subtract_t). auto. }
      assert (NDom : NoDup om).
      { unfold om. assert (Q : map mod_degree (filter is_subtract ms) = map (spell 0) (map m_degree (filter is_subtract ms))).
        { rewrite map_map. apply map_ext_in. intros m Hm. apply (filter_type _ _ _ _ is_subtract_t) in Hm as (Hm & Ht).
          rewrite mod_degree_spell, (proj1 (proj2 (proj2 (M1 m Hm))) Ht). reflexivity. }
        rewrite Q. apply FinFun.Injective_map_NoDup; [|exact M2]. intros x y Hxy. apply spell_inj in Hxy as (_ & Hxy). exact Hxy. }
      assert (NDE : NoDup E) by (exact (nodup_app_l _ _ ND)).
      assert (Disj : forall d, In d E -> In d (implied sh) -> False).
      { clear - ND. induction E as [|e E IH]; intros d H1 H2; [destruct H1|]. cbn in ND. inversion ND as [|? ? N1 N2]; subst.
        destruct H1 as [->|H1]; [apply N1, in_or_app; right; exact H2|exact (IH N2 d H1 H2)]. }
      destruct (omit_all_spec E om NDE [] [] NDom) as (st & Eom & Hst).
      { intros o' Ho'. apply Om in Ho' as (m & _ & _ & ->). exists (m_degree m). apply degreeInt_spell. }
      rewrite !app_nil_l in Eom. rewrite app_nil_r in Eom.
      assert (Id : filter (fun d => negb (mem d [])) E = E) by (apply filter_id; reflexivity).
      rewrite Id in Eom. cbn [app] in Eom.
      set (l1 := filter (fun d => negb (mem d om)) E ++ st) in *.
      assert (L1 : forall d, In d l1 <-> (In d E /\ ~ In d om) \/ (exists m, In m ms /\ m_type m = Subtract /\ ~ In (spell 0 (m_degree m)) E /\ d = "*"%char :: spell 0 (m_degree m))).
      { intro d. unfold l1. rewrite in_app_iff, filter_In, negb_true_iff, mem_false, Hst. split; (intros [H|H]; [left; exact H|right]).
        - destruct H as (o' & x & Ho' & He & Hx & ->). apply Om in Ho' as (m & Hm & Ht & ->). exists m.
          rewrite degreeInt_spell in Hx. injection Hx as <-. repeat split; assumption.
        - destruct H as (m & Hm & Ht & He & ->). exists (spell 0 (m_degree m)), (m_degree m). split; [apply Om; exists m; auto|].
          split; [exact He|]. split; [apply degreeInt_spell|reflexivity]. }
      assert (Sub : forall m, In m ms -> m_type m <> Add -> m_type m = Subtract /\ kind_has types (c_kind c) (spell 0 (m_degree m))).
      { intros m Hm Ht. split; [|apply (proj2 (proj2 (proj2 (M1 m Hm)))), Ht]. specialize (M4 m Hm). destruct (m_type m); congruence. }
      set (l2 := l1 ++ map mod_degree (filter is_add ms)).
      assert (L2 : forall d, In d l2 -> (exists a x, d = spell a x /\ (x = 1%N -> a = 0%Z)) \/ (sh <> [] /\ exists a x, d = "*"%char :: spell a x)).
      { intros d Hd. unfold l2 in Hd. apply in_app_iff in Hd as [Hd|Hd]; [|left; apply AddsL, Hd].
        apply L1 in Hd as [(Hd & _)|(m & Hm & Ht & He & ->)]; [left; apply EL, Hd|right].
        split; [|exists 0%Z, (m_degree m); reflexivity]. intros ->.
        pose proof (proj2 (proj2 (proj2 (M1 m Hm)))) as Hkh. rewrite Ht in Hkh. specialize (Hkh ltac:(discriminate)). apply KH, Dsh in Hkh as [Q|[Q|[]]]; [|exact (He Q)].
        rewrite one_spell in Q. apply spell_inj in Q as (_ & Q). pose proof (proj1 (M1 m Hm)). lia. }
      assert (L3 : forall d, In d l2 -> degreeInt d <> None).
      { intros d Hd. destruct (L2 d Hd) as [(a & x & -> & _)|(_ & a & x & ->)]; [rewrite degreeInt_spell|rewrite degreeInt_star]; discriminate. }
      destruct (sorted_perm l2 L3) as (ds & Esort & P).
      assert (P' : forall d, In d ds <-> In d l2) by (intro; split; apply Permutation_in; [exact P|symmetry; exact P]).
      assert (NE : sh <> [] \/ ds <> []).
      { destruct sh; [right|left; discriminate]. destruct (Nem eq_refl) as (e & He & Hq). intro Q.
        assert (In e ds) as Hi; [|rewrite Q in Hi; destruct Hi]. apply P'. unfold l2. apply in_app_iff. left. apply L1. left. split; [exact He|].
        intro Q'. apply Om in Q' as (m & Hm & _ & ->). destruct Hq as [Hq|Hq]; [exact (One m 0%Z Hm (eq_sym Hq))|]. rewrite alt_spell in Hq. congruence. }
      exists sh, ds. split; [|split; [exact NE|split; [exact Hsh|split]]].
      * apply (body_text nr c sh s2 ds o Hr).
        -- intros d Hd. destruct (L2 d (proj1 (P' d) Hd)) as [(a & x & -> & _)|(_ & a & x & ->)]; exists a, x; auto.
        -- exact Ehb.
        -- exact Ho.
        -- fold ms. rewrite NA. exact Esh.
        -- fold ms. assert (Q : modifyDegrees s2 (map mod_degree (filter is_add ms)) (map mod_degree (filter is_subtract ms)) (map mod_degree (filter is_alter ms)) = Some (join (S_ ",") ds)).
           { unfold modifyDegrees. fold E. fold om. rewrite FA, Eom. cbn [map alter_all]. fold l2. rewrite Esort. reflexivity. }
           unfold degs_of. destruct ms; [congruence|exact Q].
      * intros d Hd. apply L2, P', Hd.
      * intro d. rewrite (stands_implied sh ds d Hsh). unfold has. fold ms. rewrite KH, Dsh. split.
        -- intros [H|[(H & H')|(H & H')]].
           ++ left. split; [auto|]. intros m a Hm _. subst d. apply One, Hm.
           ++ apply P' in H. unfold l2 in H. apply in_app_iff in H as [H|H].
              ** apply L1 in H as [(He & Hn)|(m & _ & _ & _ & ->)]; [|exfalso; exact (H' _ eq_refl)].
                 left. split; [auto|]. intros m a Hm Ht ->. destruct (Sub m Hm Ht) as (Ht' & Hs). apply Hn, Om. exists m. split; [exact Hm|]. split; [exact Ht'|].
                 f_equal. apply (D5 _ _ (m_degree m)); [apply Dsh; auto|apply KH, Hs].
              ** apply Adds in H. right; left. exact H.
           ++ left. split; [auto|]. intros m a Hm Ht ->. destruct (Sub m Hm Ht) as (Ht' & Hs).
              assert (a = 0%Z) by (apply (D5 _ _ (m_degree m)); [apply Dsh; auto|apply KH, Hs]). subst a.
              apply H', P'. unfold l2. apply in_app_iff. left. apply L1. right. exists m. split; [exact Hm|]. split; [exact Ht'|].
              split; [intro Q; exact (Disj _ Q H)|reflexivity].
        -- intros [(H & H')|[H|(m & a & Hm & Ht & _)]]; [|right; left|exfalso; exact (M4 m Hm Ht)].
           ++ assert (Hn : ~ In d om) by (intro Q; apply Om in Q as (m & Hm & Ht & Q); apply (H' m 0%Z Hm); [congruence|exact Q]).
              destruct H as [H|[H|H]]; [auto|right; left|right; right].
              ** split; [apply P'; unfold l2; apply in_app_iff; left; apply L1; left; auto|].
                 intros d' ->. destruct (EL _ H) as (a & x & Q & _). exact (spell_not_star _ _ _ (eq_sym Q)).
              ** split; [exact H|]. intro Q. apply P' in Q. unfold l2 in Q. apply in_app_iff in Q as [Q|Q].
                 --- apply L1 in Q as [(Q & _)|(m & Hm & Ht & _ & Q)].
                     +++ destruct (EL _ Q) as (a & x & Q' & _). exact (spell_not_star _ _ _ (eq_sym Q')).
                     +++ injection Q as Q. apply (H' m 0%Z Hm); [congruence|exact Q].
                 --- destruct (AddsL _ Q) as (a & x & Q' & _). exact (spell_not_star _ _ _ (eq_sym Q')).
           ++ apply Adds in H. split; [apply P'; unfold l2; apply in_app_iff; right; exact H|].
              intros d' ->. destruct (AddsL _ H) as (a & x & Q & _). exact (spell_not_star _ _ _ (eq_sym Q)). }
  (* alterations, and so nothing taken away *)
  destruct M4 as [M4|M4].
  { exfalso. apply existsb_exists in NA as (m & Hm & Ht). apply is_alter_t in Ht. exact (M4 m Hm Ht). }
  assert (Hne : ms <> []) by (intro Q; rewrite Q in NA; discriminate).
  assert (FS : filter is_subtract ms = []).
  { destruct (filter is_subtract ms) as [|m l] eqn:E; [reflexivity|]. assert (In m (filter is_subtract ms)) as Hm by (rewrite E; left; reflexivity).
    apply (filter_type _ _ _ _ is_subtract_t) in Hm as (Hm & Ht). exfalso. exact (M4 m Hm Ht). }
  set (E := degree_list s) in *.
  assert (EL : forall d, In d E -> exists a x, d = spell a x /\ (x = 1%N -> a = 0%Z)) by (intros d Hd; apply D4, Ds; auto).
  set (al := map mod_degree (filter is_alter ms)).
  assert (Al : forall a, In a al <-> exists m, In m ms /\ m_type m = Alter /\ a = spell (alteration m) (m_degree m)).
  { intro d. unfold al. rewrite in_map_iff. split.
    - intros (m & <- & Hm). apply (filter_type _ _ _ _ is_alter_t) in Hm as (Hm & Ht). exists m. rewrite mod_degree_spell. auto.
    - intros (m & Hm & Ht & ->). exists m. rewrite mod_degree_spell. split; [reflexivity|]. apply (filter_type _ _ _ _ is_alter_t). auto. }
  destruct (alter_all_spec al E) with (f := fun d : str => d) as (g & Eg & G).
  { intros d Hd. apply in_app_iff in Hd as [Hd|Hd]; [apply Al in Hd as (m & _ & _ & ->)|destruct (EL d Hd) as (a & x & -> & _)]; rewrite degreeInt_spell; discriminate. }
  rewrite map_id in Eg.
  set (l2 := map g E ++ map mod_degree (filter is_add ms)).
  assert (L2 : forall d, In d l2 -> exists a x, d = spell a x /\ (x = 1%N -> a = 0%Z)).
  { intros d Hd. unfold l2 in Hd. apply in_app_iff in Hd as [Hd|Hd]; [|apply AddsL, Hd]. apply in_map_iff in Hd as (e & <- & He).
    destruct (G e He) as [(a & Ha & _ & ->)|(_ & ->)]; [|apply EL, He]. apply Al in Ha as (m & Hm & _ & ->).
    exists (alteration m), (m_degree m). split; [reflexivity|]. intro Q. pose proof (proj1 (M1 m Hm)). lia. }
  destruct (sorted_perm l2) as (ds & Esort & P).
  { intros d Hd. destruct (L2 d Hd) as (a & x & -> & _). rewrite degreeInt_spell. discriminate. }
  assert (P' : forall d, In d ds <-> In d l2) by (intro; split; apply Permutation_in; [exact P|symmetry; exact P]).
  assert (NE : ds <> []).
  { intro Q. rewrite Q in P. apply Permutation_nil in P. unfold l2 in P. apply app_eq_nil in P as (P & _). apply map_eq_nil in P.
    revert P. unfold E, degree_list. destruct s; [congruence|]. clear. cbn [split_char]. destruct (Ascii.eqb _ _); [discriminate|].
    destruct (split_char ","%char s); discriminate. }
  exists [], ds. split; [|split; [right; exact NE|split; [left; reflexivity|split]]].
  - apply (body_text nr c [] s ds o Hr).
    + intros d Hd. destruct (L2 d (proj1 (P' d) Hd)) as (a & x & -> & _); exists a, x; auto.
    + exact Ehb.
    + exact Ho.
    + fold ms. rewrite NA, Es. reflexivity.
    + fold ms. assert (Q : modifyDegrees s (map mod_degree (filter is_add ms)) (map mod_degree (filter is_subtract ms)) al = Some (join (S_ ",") ds)).
      { unfold modifyDegrees. fold E. rewrite FS. cbn [map omit_all]. rewrite Eg. fold l2. rewrite Esort. reflexivity. }
      unfold degs_of. fold al. destruct ms; [congruence|exact Q].
  - intros d Hd. left. apply L2, P', Hd.
  - intro d. rewrite (stands_implied [] ds d (or_introl eq_refl)). unfold has. fold ms. rewrite KH, Ds. split.
    + intros [H|[(H & _)|([] & _)]].
      * left. split; [auto|]. intros m a Hm _. subst d. apply One, Hm.
      * apply P' in H. unfold l2 in H. apply in_app_iff in H as [H|H]; [|right; left; apply Adds, H].
        apply in_map_iff in H as (e & <- & He). destruct (G e He) as [(a & Ha & _ & ->)|(Hn & ->)].
        -- apply Al in Ha as (m & Hm & Ht & ->). right; right. exists m, 0%Z. split; [exact Hm|]. split; [exact Ht|].
           split; [|reflexivity]. apply (proj2 (proj2 (proj2 (M1 m Hm)))). congruence.
        -- left. split; [auto|]. intros m a Hm Ht ->. rewrite num_spell in Hn. apply (Hn (spell (alteration m) (m_degree m))).
           ++ apply Al. exists m. split; [exact Hm|]. split; [|reflexivity]. specialize (M4 m Hm). destruct (m_type m); congruence.
           ++ apply num_spell.
    + intros [(H & H')|[H|(m & a & Hm & Ht & Hk' & ->)]].
      * destruct H as [H|H]; [auto|right; left]. destruct (EL _ H) as (a & x & Q & _).
        split; [|intros d' ->; exact (spell_not_star _ _ _ (eq_sym Q))].
        apply P'. unfold l2. apply in_app_iff. left. apply in_map_iff. exists d. split; [|exact H].
        destruct (G d H) as [(b & Hbl & Hn & _)|(_ & R)]; [exfalso|exact R]. apply Al in Hbl as (m & Hm & Ht & ->).
        rewrite num_spell in Hn. subst d. rewrite num_spell in Hn. subst x. apply (H' m a Hm); [congruence|reflexivity].
      * right; left. apply Adds in H. split; [apply P'; unfold l2; apply in_app_iff; right; exact H|].
        intros d' ->. destruct (AddsL _ H) as (a & x & Q & _). exact (spell_not_star _ _ _ (eq_sym Q)).
      * pose proof (proj2 (proj2 (proj2 (M1 m Hm)))) as Hz. specialize (Hz ltac:(congruence)). apply KH in Hk'. apply KH in Hz.
        assert (a = 0%Z) by exact (D5 _ _ _ Hk' Hz). subst a. apply Ds in Hz as [Hz|Hz]; [exfalso; exact (One m 0%Z Hm (eq_sym Hz))|].
        right; left. split; [|intros d'; apply spell_not_star]. apply P'. unfold l2. apply in_app_iff. left. apply in_map_iff.
        exists (spell 0 (m_degree m)). split; [|exact Hz]. destruct (G _ Hz) as [(b & Hbl & Hn & R)|(Hn & _)].
        -- rewrite R. apply Al in Hbl as (m' & Hm' & Ht' & ->). rewrite !num_spell in Hn.
           assert (m' = m); [|subst; reflexivity]. apply (nodup_map_eq m_degree (filter is_alter ms)); [exact M3| | |exact Hn]; apply (filter_type _ _ _ _ is_alter_t); auto.
        -- exfalso. apply (Hn (spell (alteration m) (m_degree m))); [apply Al; exists m; auto|rewrite !num_spell; reflexivity].
Qed.

(** ** The theorems *)

(** A text of Harte's notation and the chord that it denotes: its root, its bass and its
    degrees.  It has a shorthand or a list of degrees or both; degrees are taken away from
    a shorthand only. *)
Definition denotes (t : str) (r p : pname) (D : str -> Prop) : Prop :=
  exists sh ds b, t = text r sh ds b /\ p_step r < 7 /\ (sh <> [] \/ ds <> []) /\ (sh = [] \/ exists imp, In (sh, imp) shorthands)
    /\ (forall d, In d ds -> (exists a n, d = spell a n /\ (n = 1%N -> a = 0%Z)) \/ (sh <> [] /\ exists a n, d = "*"%char :: spell a n))
    /\ bass_reads r b p /\ forall d, D d <-> stands_for sh ds d.

(** C117: the text written for a chord symbol denotes that chord: same root, same bass,
    same degrees.  Missing: see the counterexamples below. *)
Theorem C117_harte_written_partial types noResult c :
  table_ok types -> In (c_kind c) (map fst usual) -> p_step (c_root c) < 7 ->
  mods_ok types (c_kind c) (c_mods c) -> bass_ok (c_root c) (c_bass c) ->
  exists t, makeHarteFromChordSymbol noResult (Sym c) = Some t /\ denotes t (c_root c) (c_bass c) (has types c).
Proof.
  intros T Hk Hr Hm Hb. rewrite write_body.
  destruct (simplify c) as [c'|] eqn:Es.
  - destruct (simplify_has types c c' T Es) as (Er & Eb & Eh & Ec).
    assert (Hk' : exists n, In (c_kind c', n) usual /\ mods_ok types (c_kind c') (c_mods c')).
    { assert (Q : In (c_kind c') (map fst usual) /\ mods_ok types (c_kind c') (c_mods c')).
      { destruct Ec as [->|(Q & Q')]; [auto|]. split; [exact Q'|]. rewrite Q. unfold mods_ok. cbn.
        split; [intros m []|]. split; [constructor|]. split; [constructor|]. left. intros m []. }
      destruct Q as (Q & Q'). apply in_map_iff in Q as ([k n] & Q & Hin). exists n. cbn in Q. subst k. auto. }
    destruct Hk' as (n & Hn & Hm'). rewrite <- Er in Hr. rewrite <- Er, <- Eb in Hb.
    destruct (hartifyBass_ok _ _ Hr Hb) as (o & Ho & Eo).
    destruct (write_core types noResult c' n o T Hn Hr Hm' Ho Eo) as (sh & ds & Et & Q1 & Q2 & Q3 & Q4).
    exists (text (c_root c') sh ds o). split; [exact Et|]. rewrite <- Er, <- Eb. exists sh, ds, o.
    split; [reflexivity|]. split; [exact Hr|]. split; [exact Q1|]. split; [exact Q2|]. split; [exact Q3|]. split; [exact Ho|].
    intro d. rewrite <- Eh, Q4. reflexivity.
  - exfalso. revert Es. unfold simplify. destruct Hm as (Hm & _). destruct (c_mods c) as [|m [|m2 ms]]; [discriminate| |discriminate].
    destruct (simplified (c_kind c) m) as [[k|]|] eqn:E; [discriminate|discriminate|].
    intros _. apply (simplified_some (c_kind c) m); [|exact E]. apply (Hm m). left. reflexivity.
Qed.
Print Assumptions C117_harte_written_partial.

(** C118: a text that denotes a chord is read as a chord symbol of that root, that bass
    and those degrees.  Missing: see the counterexamples below. *)
Theorem C118_harte_read_partial types set_order t r p D :
  table_ok types -> (forall l, Permutation (set_order l) l) -> denotes t r p D ->
  exists c, makeChordSymbolFromHarte types set_order t = Some (Some (Sym c))
    /\ c_root c = r /\ c_bass c = p /\ forall d, has types c d <-> D d.
Proof.
  intros T Hs (sh & ds & b & -> & Hr & _ & Hsh & Hds & Hb & HD).
  destruct (read_core types set_order r sh ds b p T Hs Hr Hsh Hds Hb) as (c & E & R & B & H).
  exists c. split; [exact E|]. split; [exact R|]. split; [exact B|]. intro d. rewrite H, HD. reflexivity.
Qed.
Print Assumptions C118_harte_read_partial.

(** C119: what is written is read back as a chord symbol of the same root, bass and
    degrees; no chord is read back as no chord.  Missing: see the counterexamples below. *)
Theorem C119_harte_round_partial types set_order noResult cs :
  table_ok types -> (forall l, Permutation (set_order l) l) ->
  match cs with
  | NoChord => exists t, makeHarteFromChordSymbol noResult cs = Some t /\ makeChordSymbolFromHarte types set_order t = Some (Some NoChord)
  | Sym c =>
      In (c_kind c) (map fst usual) -> p_step (c_root c) < 7 ->
      mods_ok types (c_kind c) (c_mods c) -> bass_ok (c_root c) (c_bass c) ->
      exists t c', makeHarteFromChordSymbol noResult cs = Some t
        /\ makeChordSymbolFromHarte types set_order t = Some (Some (Sym c'))
        /\ c_root c' = c_root c /\ c_bass c' = c_bass c /\ forall d, has types c' d <-> has types c d
  end.
Proof.
  intros T Hs. destruct cs as [|c].
  - exists (S_ "N"). split; reflexivity.
  - intros Hk Hr Hm Hb. destruct (C117_harte_written_partial types noResult c T Hk Hr Hm Hb) as (t & Et & Ht).
    destruct (C118_harte_read_partial types set_order t _ _ _ T Hs Ht) as (c' & Q). exists t, c'. split; [exact Et|exact Q].
Qed.
Print Assumptions C119_harte_round_partial.

(** ** Cases *)

(** A table with one row more. *)
Definition table : list (str * str) := usual ++ [(S_ "Neapolitan", S_ "1,2-,3,5-")].
Lemma table_is_ok : table_ok table.
Proof.
  split; [intros e He; apply in_or_app; left; exact He|]. split; [apply no_dup_NoDup; vm_compute; reflexivity|].
  assert (A : forallb (fun kn : str * str => negb (str_eqb (fst kn) []) && mem (S_ "1") (m21_degrees (snd kn))) table = true) by (vm_compute; reflexivity).
  rewrite forallb_forall in A. intros k n H. specialize (A _ H). apply andb_true_iff in A as (A1 & A2). split; [|apply mem_In, A2].
  apply negb_true_iff in A1. intro Q. cbn [fst] in A1. rewrite Q in A1. discriminate.
Qed.

Lemma row_of k n : assoc_str k usual = Some n -> forall d, kind_has table k d <-> In d (m21_degrees n).
Proof. intros H d. apply kind_has_usual; [exact table_is_ok|apply assoc_usual, H]. Qed.

(** E flat minor seventh over B flat, without its fifth, with an added sharp eleventh. *)
Definition eb_minor : chord :=
  Chord (PName 2 (-1)) (PName 6 (-1)) (S_ "minor-seventh") [Mod Subtract 5 None; Mod Add 11 (Some 1%Z)].
(** F sharp seventh with a raised fifth and an added flat ninth. *)
Definition fs_seventh : chord :=
  Chord (PName 3 1) (PName 3 1) (S_ "dominant-seventh") [Mod Alter 5 (Some 1%Z); Mod Add 9 (Some (-1)%Z)].
Lemma cases_ok c : c = eb_minor \/ c = fs_seventh ->
  In (c_kind c) (map fst usual) /\ p_step (c_root c) < 7 /\ mods_ok table (c_kind c) (c_mods c) /\ bass_ok (c_root c) (c_bass c).
Proof.
  intros [-> | ->]; cbn [eb_minor fs_seventh c_kind c_root c_mods c_bass p_step].
  - split; [apply mem_In; vm_compute; reflexivity|]. split; [lia|]. split.
    + split; [|split; [|split]].
      * intros m [<-|[<-|[]]]; cbn; (split; [lia|]); (split; [congruence|]); (split; [congruence|]); intro H; [|congruence].
        refine (proj2 (row_of (S_ "minor-seventh") (S_ "1,-3,5,-7") eq_refl _) _). apply mem_In. vm_compute. reflexivity.
      * cbn. repeat constructor. intros [].
      * cbn. constructor.
      * left. intros m [<-|[<-|[]]]; discriminate.
    + exists 5, 0%Z. split; [split; [lia|auto]|]. split; [split; reflexivity|cbn; lia].
  - split; [apply mem_In; vm_compute; reflexivity|]. split; [lia|]. split.
    + split; [|split; [|split]].
      * intros m [<-|[<-|[]]]; cbn; (split; [lia|]); (split; [congruence|]); (split; [congruence|]); intro H; [|congruence].
        refine (proj2 (row_of (S_ "dominant-seventh") (S_ "1,3,5,-7") eq_refl _) _). apply mem_In. vm_compute. reflexivity.
      * cbn. constructor.
      * cbn. repeat constructor. intros [].
      * right. intros m [<-|[<-|[]]]; discriminate.
    + exists 1, 0%Z. split; [split; [lia|auto]|]. split; [split; reflexivity|cbn; lia].
Qed.

Example C117_harte_written_nonvacuous :
  makeHarteFromChordSymbol (S_ ".") (Sym eb_minor) = Some (S_ "Eb:min7(*5,#11)/5")
  /\ makeHarteFromChordSymbol (S_ ".") (Sym fs_seventh) = Some (S_ "F#:(3,#5,b7,b9)")
  /\ denotes (S_ "Eb:min7(*5,#11)/5") (PName 2 (-1)) (PName 6 (-1)) (has table eb_minor)
  /\ denotes (S_ "F#:(3,#5,b7,b9)") (PName 3 1) (PName 3 1) (has table fs_seventh).
Proof.
  assert (E1 : makeHarteFromChordSymbol (S_ ".") (Sym eb_minor) = Some (S_ "Eb:min7(*5,#11)/5")) by (vm_compute; reflexivity).
  assert (E2 : makeHarteFromChordSymbol (S_ ".") (Sym fs_seventh) = Some (S_ "F#:(3,#5,b7,b9)")) by (vm_compute; reflexivity).
  split; [exact E1|]. split; [exact E2|].
  destruct (cases_ok eb_minor (or_introl eq_refl)) as (A1 & A2 & A3 & A4). destruct (cases_ok fs_seventh (or_intror eq_refl)) as (B1 & B2 & B3 & B4).
  destruct (C117_harte_written_partial table (S_ ".") _ table_is_ok A1 A2 A3 A4) as (t1 & F1 & G1).
  destruct (C117_harte_written_partial table (S_ ".") _ table_is_ok B1 B2 B3 B4) as (t2 & F2 & G2).
  rewrite E1 in F1. rewrite E2 in F2. inversion F1; inversion F2; subst. split; assumption.
Qed.

Example C118_harte_read_nonvacuous :
  exists c, makeChordSymbolFromHarte table (fun l => l) (S_ "Bb:min9(*5,11)/b7") = Some (Some (Sym c))
    /\ c_root c = PName 6 (-1) /\ c_bass c = PName 5 (-1)
    /\ forall d, has table c d <-> In d [S_ "1"; S_ "b3"; S_ "b7"; S_ "9"; S_ "11"].
Proof.
  apply C118_harte_read_partial; [exact table_is_ok|reflexivity|].
  exists (S_ "min9"), [S_ "*5"; S_ "11"], (Some (S_ "b7")).
  split; [reflexivity|]. split; [cbn; lia|]. split; [left; discriminate|].
  assert (Hi : In (S_ "min9", [S_ "b3"; S_ "5"; S_ "b7"; S_ "9"]) shorthands) by (apply assoc_shorthands; vm_compute; reflexivity).
  split; [right; eexists; exact Hi|]. split.
  { intros d [<-|[<-|[]]]; [right|left].
    - split; [discriminate|]. exists 0%Z, 5%N. reflexivity.
    - exists 0%Z, 11%N. split; [reflexivity|discriminate]. }
  split.
  { exists 7, (-1)%Z. split; [split; [lia|right; right; right; lia]|]. split; [reflexivity|]. split; reflexivity. }
  assert (Hx : S_ "min9" = [] \/ exists imp, In (S_ "min9", imp) shorthands) by (right; eexists; exact Hi).
  intro d. rewrite (stands_implied (S_ "min9") _ d Hx).
  destruct (shorthands_unique _ _ Hi) as (E & _). unfold implied. rewrite E. cbn [In]. split.
  - intros [<-|[<-|[<-|[<-|[<-|[]]]]]].
    + left; reflexivity.
    + right; right. split; [auto|]. intros [Q|[Q|[]]]; discriminate.
    + right; right. split; [auto|]. intros [Q|[Q|[]]]; discriminate.
    + right; right. split; [auto|]. intros [Q|[Q|[]]]; discriminate.
    + right; left. split; [auto|]. intros d' Q; discriminate.
  - intros [->|[([<-|[<-|[]]] & Q)|([<-|[<-|[<-|[<-|[]]]]] & Q)]]; try (exfalso; exact (Q _ eq_refl)); try (exfalso; apply Q; left; reflexivity); auto 9.
Qed.

Example C119_harte_round_nonvacuous :
  exists t c', makeHarteFromChordSymbol (S_ ".") (Sym eb_minor) = Some t
    /\ makeChordSymbolFromHarte table (@rev str) t = Some (Some (Sym c'))
    /\ c' <> eb_minor /\ c_root c' = c_root eb_minor /\ c_bass c' = c_bass eb_minor /\ forall d, has table c' d <-> has table eb_minor d.
Proof.
  destruct (cases_ok eb_minor (or_introl eq_refl)) as (A1 & A2 & A3 & A4).
  destruct (C119_harte_round_partial table (@rev str) (S_ ".") (Sym eb_minor) table_is_ok (fun l => Permutation_sym (Permutation_rev l)) A1 A2 A3 A4)
    as (t & c' & E1 & E2 & Q).
  exists t, c'. split; [exact E1|]. split; [exact E2|]. split; [|exact Q].
  intros ->. assert (E3 : makeHarteFromChordSymbol (S_ ".") (Sym eb_minor) = Some (S_ "Eb:min7(*5,#11)/5")) by (vm_compute; reflexivity).
  rewrite E3 in E1. injection E1 as <-. vm_compute in E2. discriminate.
Qed.

(** ** Where it goes wrong *)

Ltac row k n := rewrite (row_of (S_ k) (S_ n) eq_refl).
Ltac kind_yes k n := refine (proj2 (row_of (S_ k) (S_ n) eq_refl _) _); apply mem_In; vm_compute; reflexivity.

(** A minor chord without its third is read back with it: the text says that the major
    third is taken away, and that is not there. *)
Theorem C119_harte_round_refuted_flat_third : exists c t c' d,
  makeHarteFromChordSymbol (S_ ".") (Sym c) = Some t /\ makeChordSymbolFromHarte table (fun l => l) t = Some (Some (Sym c'))
  /\ ~ has table c d /\ has table c' d.
Proof.
  exists (Chord (PName 0 0) (PName 0 0) (S_ "minor") [Mod Subtract 3 None]), (S_ "C:min(*3)"), (Chord (PName 0 0) (PName 0 0) (S_ "minor") []), (S_ "b3").
  split; [vm_compute; reflexivity|]. split; [vm_compute; reflexivity|]. split.
  - intros [(_ & H)|[(m & [<-|[]] & H & _)|(m & a & [<-|[]] & H & _)]]; [|discriminate|discriminate].
    exact (H _ (-1)%Z (or_introl eq_refl) ltac:(discriminate) eq_refl).
  - left. split; [kind_yes "minor"%string "1,-3,5"%string|intros m a []].
Qed.
Print Assumptions C119_harte_round_refuted_flat_third.

(** Lowering the third of a minor chord is lost: it is written as a minor third. *)
Theorem C119_harte_round_refuted_flat_alter : exists c t c' d,
  makeHarteFromChordSymbol (S_ ".") (Sym c) = Some t /\ makeChordSymbolFromHarte table (fun l => l) t = Some (Some (Sym c'))
  /\ has table c d /\ ~ has table c' d.
Proof.
  exists (Chord (PName 0 0) (PName 0 0) (S_ "minor") [Mod Alter 3 (Some (-1)%Z)]), (S_ "C:(b3,5)"), (Chord (PName 0 0) (PName 0 0) (S_ "minor") []), (S_ "bb3").
  split; [vm_compute; reflexivity|]. split; [vm_compute; reflexivity|]. split.
  - right; right. exists (Mod Alter 3 (Some (-1)%Z)), (-1)%Z. split; [left; reflexivity|]. split; [reflexivity|]. split; [|reflexivity].
    kind_yes "minor"%string "1,-3,5"%string.
  - intros [(H & _)|[(m & [] & _)|(m & a & [] & _)]]. revert H. cbn [c_kind]. row "minor"%string "1,-3,5"%string. rewrite <- mem_In. vm_compute. discriminate.
Qed.
Print Assumptions C119_harte_round_refuted_flat_alter.

(** A degree taken away together with an altered one: the alteration goes to the wrong
    place and the seventh is lost. *)
Theorem C119_harte_round_refuted_both : exists c t c' d,
  makeHarteFromChordSymbol (S_ ".") (Sym c) = Some t /\ makeChordSymbolFromHarte table (fun l => l) t = Some (Some (Sym c'))
  /\ has table c d /\ ~ has table c' d.
Proof.
  set (c := Chord (PName 6 (-1)) (PName 6 (-1)) (S_ "dominant-seventh") [Mod Alter 5 (Some 1%Z); Mod Subtract 3 None]).
  assert (E : exists c', makeChordSymbolFromHarte table (fun l => l) (S_ "Bb:(5,#5)") = Some (Some (Sym c')) /\ c_kind c' = S_ "power" /\ c_mods c' = [Mod Add 5 (Some 1%Z)]).
  { eexists. split; [vm_compute; reflexivity|]. split; reflexivity. }
  destruct E as (c' & E & K & M). exists c, (S_ "Bb:(5,#5)"), c', (S_ "b7").
  split; [vm_compute; reflexivity|]. split; [exact E|]. split.
  - left. split; [kind_yes "dominant-seventh"%string "1,3,5,-7"%string|]. intros m a [<-|[<-|[]]] _ Q; cbn [m_degree] in Q;
      apply (f_equal num_of) in Q; rewrite num_spell in Q; vm_compute in Q; discriminate.
  - unfold has. rewrite K, M. intros [(H & _)|[(m & [<-|[]] & _ & H)|(m & a & [<-|[]] & H & _)]].
    + revert H. row "power"%string "1,5"%string. rewrite <- mem_In. vm_compute. discriminate.
    + discriminate.
    + discriminate.
Qed.
Print Assumptions C119_harte_round_refuted_both.

(** A doubly flattened seventh in the bass is written, and cannot be read. *)
Theorem C119_harte_round_refuted_bass : exists c t,
  makeHarteFromChordSymbol (S_ ".") (Sym c) = Some t /\ c_mods c = [] /\ c_kind c = S_ "major"
  /\ makeChordSymbolFromHarte table (fun l => l) t = None.
Proof.
  exists (Chord (PName 1 0) (PName 0 (-1)) (S_ "major") []), (S_ "D:maj/bb7"). vm_compute. auto.
Qed.
Print Assumptions C119_harte_round_refuted_bass.

(** A bass that sounds as the root or just below it is written as a wrong degree: E sharp
    in the bass of an F chord becomes the degree of another note. *)
Theorem C117_harte_written_refuted_bass : exists c t,
  makeHarteFromChordSymbol (S_ ".") (Sym c) = Some t /\ c_root c = PName 3 0 /\ c_bass c = PName 2 1
  /\ t = text (PName 3 0) (S_ "7") [] (Some (S_ "bb2")) /\ forall p, stands (c_root c) 2 (-2) p -> p <> c_bass c.
Proof.
  exists (Chord (PName 3 0) (PName 2 1) (S_ "dominant-seventh") []), (S_ "F:7/bb2").
  split; [vm_compute; reflexivity|]. split; [reflexivity|]. split; [reflexivity|]. split; [reflexivity|].
  intros p (H & _) ->. discriminate.
Qed.
Print Assumptions C117_harte_written_refuted_bass.

(** An added degree that does not say by how much it is altered ends the export. *)
Theorem C117_harte_written_refuted_raises : exists c,
  c_kind c = S_ "major" /\ c_mods c = [Mod Add 9 None] /\ makeHarteFromChordSymbol (S_ ".") (Sym c) = None.
Proof. exists (Chord (PName 0 0) (PName 0 0) (S_ "major") [Mod Add 9 None]). vm_compute. auto. Qed.
Print Assumptions C117_harte_written_refuted_raises.

(** A note name alone is, in Harte's notation, a major chord; it is read as that one note. *)
Theorem C118_harte_read_refuted_bare : exists c,
  makeChordSymbolFromHarte table (fun l => l) (S_ "C") = Some (Some (Sym c)) /\ ~ has table c (S_ "3") /\ ~ has table c (S_ "5").
Proof.
  exists (Chord (PName 0 0) (PName 0 0) (S_ "pedal") []). split; [vm_compute; reflexivity|].
  split; (intros [(H & _)|[(m & [] & _)|(m & a & [] & _)]]; revert H; cbn [c_kind]; row "pedal"%string "1"%string; rewrite <- mem_In; vm_compute; discriminate).
Qed.
Print Assumptions C118_harte_read_refuted_bare.

(** A bass beyond the seventh, or a doubly flattened one, raises. *)
Theorem C118_harte_read_refuted_bass :
  makeChordSymbolFromHarte table (fun l => l) (text (PName 0 0) (S_ "maj") [] (Some (spell 0 9))) = None
  /\ makeChordSymbolFromHarte table (fun l => l) (text (PName 0 0) (S_ "maj") [] (Some (spell (-2) 7))) = None.
Proof. vm_compute. auto. Qed.
Print Assumptions C118_harte_read_refuted_bass.
