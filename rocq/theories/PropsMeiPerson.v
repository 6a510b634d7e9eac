(** Properties of composers in the head of MEI files: C156. *)
From Coq Require Import List Ascii String Arith NArith ZArith Lia Bool.
From Verif Require Import PyStr PyStrProofs LayoutModel LayoutProofs ClefModel LyricProofs2 MeiTextModel MeiIdsModel MeiStyleModel PropsMeiText PropsMeiStyle MeiWorkModel MeiWorkProofs MeiPersonModel.
Import ListNotations.

(** *** Words of the statement *)
(** The list without what occurred before. *)
Fixpoint firsts_after (seen l : list str) : list str :=
  match l with
  | [] => []
  | x :: r => if existsb (str_eqb x) seen then firsts_after seen r else x :: firsts_after (seen ++ [x]) r
  end.
Definition firsts (l : list str) : list str := firsts_after [] l.
Lemma firsts_nodup l : NoDup l -> firsts l = l.
Proof.
  unfold firsts. assert (G : forall seen, NoDup (seen ++ l) -> firsts_after seen l = l).
  { induction l as [|x l IH]; intros seen N; [reflexivity|]. cbn [firsts_after]. destruct (existsb (str_eqb x) seen) eqn:E.
    - exfalso. apply existsb_exists in E. destruct E as (y & Y & E). apply str_eqb_eq in E. subst y. apply NoDup_remove_2 in N. apply N, in_or_app. left. exact Y.
    - rewrite IH; [reflexivity|]. rewrite <- app_assoc. exact N. }
  apply (G []).
Qed.
Definition names (l : list person) : list str := map c_name l.
(** The role of each composer is that of the property it stands in. *)
Definition role_is (r : string) (c : person) : Prop := c_role c = S_ r.
Definition in_order (md : composers) : Prop :=
  Forall (role_is "composer") (k_com md) /\ Forall (role_is "attributedComposer") (k_coa md)
  /\ Forall (role_is "suspectedComposer") (k_cos md) /\ Forall (role_is "composerCorporate") (k_coc md).
Definition texts_trimmed (md : composers) : Prop :=
  Forall (fun c => trimmed (c_name c)) (k_com md ++ k_coa md ++ k_cos md ++ k_coc md)
  /\ Forall trimmed (k_col md) /\ Forall trimmed (k_cbl md) /\ Forall trimmed (k_cdl md) /\ Forall trimmed (k_cnt md).
Definition number_of_composers (md : composers) : nat := length (k_com md) + length (k_coa md) + length (k_cos md) + length (k_coc md).
(** How many composers have dates, a place or a nationality. *)
Definition described (md : composers) : nat := Nat.max (Nat.max (length (k_cdt md)) (length (k_cbl md))) (Nat.max (length (k_cdl md)) (length (k_cnt md))).

Section C156.
Context (glyph_num glyph_name : str -> str) (std : str -> bool) (std_name : str -> str) (range : str -> str -> option str) (birth_death : str -> str * str).
(** The text that comes back for dates; nothing unless there are both and can be read. *)
Definition date_back (d : str) : list str :=
  match strip (fst (birth_death d)), strip (snd (birth_death d)) with
  | (_ :: _) as b, (_ :: _) as e => match range b e with Some ((_ :: _) as r) => [r] | _ => [] end
  | _, _ => []
  end.

(** *** Putting *)
Definition putp (f : found) (x : str * str) : found := put std_name f (fst x) (snd x).
Definition plain_keys (l : list (str * str)) : Prop := Forall (fun x => starts_with humdrum (fst x) = true) l.
Definition sel (k : string) (l : list (str * str)) : list str := map snd (filter (fun x => str_eqb (fst x) (humdrum ++ S_ k)) l).
Lemma sel_app k a b : sel k (a ++ b) = sel k a ++ sel k b.
Proof. unfold sel. rewrite filter_app, map_app. reflexivity. Qed.
Lemma seen_texts k f t : existsb (fun x => str_eqb (fst x) (humdrum ++ S_ k) && str_eqb (snd x) t) f = existsb (str_eqb t) (texts k f).
Proof.
  unfold texts. induction f as [|(a, b) f IH]; [reflexivity|]. cbn [existsb filter fst snd]. destruct (str_eqb a (humdrum ++ S_ k)); cbn [andb orb map existsb snd]; [rewrite IH, (str_eqb_sym b t); reflexivity|exact IH].
Qed.
Lemma texts_snoc k f a t : texts k (f ++ [(a, t)]) = texts k f ++ (if str_eqb a (humdrum ++ S_ k) then [t] else []).
Proof. unfold texts. rewrite filter_app, map_app. cbn [filter fst]. destruct (str_eqb a (humdrum ++ S_ k)); reflexivity. Qed.
Lemma fold_texts k l f : plain_keys l -> texts k (fold_left putp l f) = texts k f ++ firsts_after (texts k f) (sel k l).
Proof.
  intro P. revert f. induction P as [|(a, t) l A P IH]; intro f; [symmetry; apply app_nil_r|]. cbn [fold_left fst] in *. rewrite IH. clear IH.
  unfold putp at 1 2, put. cbn [fst snd]. rewrite A. unfold sel. cbn [filter fst]. destruct (str_eqb a (humdrum ++ S_ k)) eqn:E.
  - apply str_eqb_eq in E. subst a. rewrite seen_texts. cbn [map snd firsts_after]. destruct (existsb (str_eqb t) (texts k f)); [reflexivity|].
    rewrite !texts_snoc, !str_eqb_refl, <- app_assoc. reflexivity.
  - destruct (existsb _ f); [reflexivity|].
    rewrite !texts_snoc, !E, !app_nil_r. reflexivity.
Qed.

(** *** What one composer adds *)
Definition olist {A} (o : option A) : list A := match o with None => [] | Some x => [x] end.
Definition keyed (k : string) (l : list str) : list (str * str) := map (fun t => (humdrum ++ S_ k, t)) l.
Definition info_at (md : composers) (i : nat) : bool :=
  match nth_error (k_cdt md) i, nth_error (k_cbl md) i, nth_error (k_cdl md) i, nth_error (k_cnt md) i with None, None, None, None => false | _, _, _, _ => true end.
Definition mads_adds (alias cdt cbl cdl cnt : option str) : list (str * str) :=
  keyed "COL" (olist alias) ++ keyed "CDT" (flat_map date_back (olist cdt)) ++ keyed "CBL" (olist cbl) ++ keyed "CDL" (olist cdl) ++ keyed "CNT" (olist cnt).
Definition composer_adds (md : composers) (i : nat) (c : person) : list (str * str) :=
  (composer_analog (c_role c), c_name c)
  :: if info_at md i then mads_adds (nth_error (k_col md) i) (nth_error (k_cdt md) i) (nth_error (k_cbl md) i) (nth_error (k_cdl md) i) (nth_error (k_cnt md) i) else [].
Definition opt_trimmed (o : option str) : Prop := match o with None => True | Some t => trimmed t end.
Lemma trim_cons (t : str) : trimmed t -> exists c s, t = c :: s.
Proof. intros (T & _). destruct t; [destruct T|eauto]. Qed.
Lemma put_opt f k o : opt_trimmed o -> put_text std_name f k (opt_str o) = fold_left putp (keyed k (olist o)) f.
Proof. destruct o as [t|]; intro T; [|reflexivity]. destruct (trim_cons t T) as (c & s & ->). reflexivity. Qed.

Definition place_leaf (lay : str) (n : string) (o : option str) : list xml := match o with None => [] | Some t => [leaf lay n [] t] end.
Lemma read_mads lay id c alias cdt cbl cdl cnt f : opt_trimmed alias -> opt_trimmed cbl -> opt_trimmed cdl -> opt_trimmed cnt ->
  processMads std_name range f (mads_el lay birth_death id c alias cdt cbl cdl cnt) = fold_left putp (mads_adds alias cdt cbl cdl cnt) f.
Proof.
  intros TA TB TD TN. unfold processMads, mads_adds. cbv zeta.
  assert (A : alias_of (mads_el lay birth_death id c alias cdt cbl cdl cnt) = opt_str alias).
  { destruct alias as [a|]; [|reflexivity]. cbn. apply strip_trimmed. exact TA. }
  rewrite A, put_opt by exact TA. rewrite fold_left_app. set (f1 := fold_left putp (keyed "COL" (olist alias)) f). clearbody f1.
  assert (I : find_first (S_ "personInfo") (x_subs (mads_el lay birth_death id c alias cdt cbl cdl cnt))
    = Some (El (S_ "personInfo") [] lay (match cdt with None => [] | Some d => date_leaf lay "birthDate" (fst (birth_death d)) ++ date_leaf lay "deathDate" (snd (birth_death d)) end
            ++ opt_leaf lay "birthPlace" [] cbl ++ opt_leaf lay "deathPlace" [] cdl ++ opt_leaf lay "nationality" [] cnt) lay)).
  { destruct alias; reflexivity. }
  rewrite I. cbn [x_subs].
  set (info := match cdt with None => [] | Some d => date_leaf lay "birthDate" (fst (birth_death d)) ++ date_leaf lay "deathDate" (snd (birth_death d)) end
            ++ opt_leaf lay "birthPlace" [] cbl ++ opt_leaf lay "deathPlace" [] cdl ++ opt_leaf lay "nationality" [] cnt).
  assert (D : put_text std_name f1 "CDT" (dates_of range (El (S_ "personInfo") [] lay info lay)) = fold_left putp (keyed "CDT" (flat_map date_back (olist cdt))) f1).
  { unfold dates_of. cbn [x_subs].
    assert (BD : stripped (find_first (S_ "birthDate") info) = match cdt with None => [] | Some d => strip (fst (birth_death d)) end
      /\ stripped (find_first (S_ "deathDate") info) = match cdt with None => [] | Some d => strip (snd (birth_death d)) end).
    { subst info. destruct cdt as [d|]; [destruct (birth_death d) as (b & e); destruct b, e|]; cbn [fst snd date_leaf app]; destruct cbl, cdl, cnt; split; reflexivity. }
    destruct BD as (-> & ->). destruct cdt as [d|]; [|reflexivity]. cbn [olist flat_map]. rewrite app_nil_r. unfold date_back.
    destruct (strip (fst (birth_death d))) as [|b bs], (strip (snd (birth_death d))) as [|e es]; try reflexivity.
    destruct (range (b :: bs) (e :: es)) as [[|r rs]|]; reflexivity. }
  rewrite D.
  assert (P : forall n o, In (n, o) [("birthPlace"%string, cbl); ("deathPlace"%string, cdl); ("nationality"%string, cnt)] -> opt_trimmed o -> stripped (find_first (S_ n) info) = opt_str o).
  { intros n o N T. assert (F : find_first (S_ n) info = find_first (S_ n) (place_leaf lay n o)).
    { subst info. cbn [In] in N. destruct N as [N|[N|[N|[]]]]; injection N as <- <-;
      (destruct cdt as [d|]; [destruct (birth_death d) as (b & e); destruct b, e|]; destruct cbl, cdl, cnt; reflexivity). }
    rewrite F. destruct o as [t|]; [|reflexivity]. unfold find_first, place_leaf, leaf. cbn [find x_name]. rewrite str_eqb_refl. cbn [stripped x_text opt_str]. apply strip_trimmed. exact T. }
  rewrite (P "birthPlace"%string cbl), (P "deathPlace"%string cdl), (P "nationality"%string cnt) by (first [assumption|cbn [In]; tauto]). rewrite !put_opt by assumption. rewrite !fold_left_app. reflexivity.
Qed.

(** *** Finding the record of a composer *)
Lemma unique_by {A B} (g : A -> B) l x y : NoDup (map g l) -> In x l -> In y l -> g x = g y -> x = y.
Proof.
  induction l as [|z l IH]; intros N X Y E; [destruct X|]. cbn [map] in N. inversion N as [|? ? N1 N2]. destruct X as [->|X], Y as [->|Y]; [reflexivity| | |exact (IH N2 X Y E)].
  - exfalso. apply N1. rewrite E. apply in_map. exact Y.
  - exfalso. apply N1. rewrite <- E. apply in_map. exact X.
Qed.
Definition mid (m : xml) : str := x_get (S_ "ID") (x_attrs m).
Lemma mads_found lay ms (m : xml) n a id t : mid m = id -> id <> [] -> NoDup (map mid ms) -> In m ms ->
  mads_for ms (leaf lay n (a ++ [(S_ "auth.uri", "#"%char :: id)]) t) = Some m \/ assoc_str (S_ "auth.uri") a <> None.
Proof.
  intros M N D I. destruct (assoc_str (S_ "auth.uri") a) eqn:E; [right; discriminate|left]. unfold mads_for, leaf. cbn [x_attrs].
  assert (G : x_get (S_ "auth.uri") (a ++ [(S_ "auth.uri", "#"%char :: id)]) = "#"%char :: id).
  { unfold x_get. clear - E. induction a as [|(k, v) a IH]; [reflexivity|]. cbn [app assoc_str] in *. destruct (str_eqb (S_ "auth.uri") k) eqn:K; [discriminate|]. first [exact (IH E)|rewrite ?K in *; exact (IH E)]. }
  rewrite G. cbn [removeOctothorpe]. change (Ascii.eqb "#" "#") with true. cbv iota. destruct id as [|i0 id0]; [congruence|].
  destruct (find (fun m0 => str_eqb (x_get (S_ "ID") (x_attrs m0)) (i0 :: id0)) (rev ms)) as [m'|] eqn:F.
  - apply find_some in F. destruct F as (F1 & F2). apply in_rev in F1. apply str_eqb_eq in F2. f_equal. apply (unique_by mid ms); [exact D|exact F1|exact I|]. unfold mid at 1. rewrite F2. symmetry. exact M.
  - exfalso. assert (Q := find_none _ _ F m). cbv beta in Q. fold (mid m) in Q. rewrite M, str_eqb_refl in Q. discriminate Q. apply in_rev. rewrite rev_involutive. exact I.
Qed.

Lemma analog_key role : starts_with humdrum (composer_analog role) = true.
Proof. unfold composer_analog. repeat (destruct (str_eqb role _); [reflexivity|]). reflexivity. Qed.
Lemma lstrip_spaces t : (forall c, In c t -> is_space c = true) -> lstrip t = [].
Proof. induction t as [|c t IH]; intro H; [reflexivity|]. cbn [lstrip]. rewrite (H c (or_introl eq_refl)). apply IH. intros d D. apply H. right. exact D. Qed.
Lemma lay_strip lay : lay = [] \/ layout lay -> strip lay = [].
Proof. intros [->|(_ & H)]; [reflexivity|]. unfold strip. rewrite (lstrip_spaces lay H). reflexivity. Qed.

Local Notation rc := (processComposer glyph_num glyph_name std std_name range).
Lemma read_name lay ms cert c more f : lay = [] \/ layout lay -> trimmed (c_name c) ->
  let n := leaf lay (composer_tag (c_role c)) ([(S_ "analog", composer_analog (c_role c))] ++ more) (c_name c) in
  rc ms f (El (S_ "composer") cert lay [n] lay) = with_mads std_name range ms n (putp f (composer_analog (c_role c), c_name c)).
Proof.
  intros L T. cbv zeta. unfold processComposer. cbn [x_text x_attrs x_subs]. rewrite (lay_strip lay L). cbn [fold_left].
  assert (K : forall corp ty ct, person_key std corp (x_get (S_ "analog") ([(S_ "analog", composer_analog (c_role c))] ++ more)) ty ct = composer_analog (c_role c)).
  { intros corp ty ct. unfold person_key, usable. change (x_get (S_ "analog") ([(S_ "analog", composer_analog (c_role c))] ++ more)) with (composer_analog (c_role c)). rewrite analog_key. reflexivity. }
  assert (B : forall corp g, match strip (fst (text_of glyph_num glyph_name [] (leaf lay (composer_tag (c_role c)) ([(S_ "analog", composer_analog (c_role c))] ++ more) (c_name c)))) with
      | [] => g
      | (_ :: _) as name => with_mads std_name range ms (leaf lay (composer_tag (c_role c)) ([(S_ "analog", composer_analog (c_role c))] ++ more) (c_name c))
          (put std_name g (person_key std corp (x_get (S_ "analog") ([(S_ "analog", composer_analog (c_role c))] ++ more)) (x_get (S_ "type") ([(S_ "analog", composer_analog (c_role c))] ++ more)) (x_get (S_ "cert") cert)) name)
      end = with_mads std_name range ms (leaf lay (composer_tag (c_role c)) ([(S_ "analog", composer_analog (c_role c))] ++ more) (c_name c)) (putp g (composer_analog (c_role c), c_name c))).
  { intros corp g. unfold leaf at 1. rewrite plain_text by exact T. rewrite strip_trimmed by exact T. destruct (trim_cons _ T) as (x & xs & E). rewrite E at 1. rewrite K. unfold putp. cbn [fst snd]. rewrite E. reflexivity. }
  unfold composer_tag in *. destruct (str_eqb (c_role c) (S_ "composerCorporate")).
  - change (filter (fun s => str_eqb (x_name s) (S_ "persName")) [leaf lay "corpName" ([(S_ "analog", composer_analog (c_role c))] ++ more) (c_name c)]) with (@nil xml).
    change (filter (fun s => str_eqb (x_name s) (S_ "name")) [leaf lay "corpName" ([(S_ "analog", composer_analog (c_role c))] ++ more) (c_name c)]) with (@nil xml).
    change (filter (fun s => str_eqb (x_name s) (S_ "corpName")) [leaf lay "corpName" ([(S_ "analog", composer_analog (c_role c))] ++ more) (c_name c)]) with [leaf lay "corpName" ([(S_ "analog", composer_analog (c_role c))] ++ more) (c_name c)].
    cbn [fold_left]. exact (B true f).
  - change (filter (fun s => str_eqb (x_name s) (S_ "corpName")) [leaf lay "persName" ([(S_ "analog", composer_analog (c_role c))] ++ more) (c_name c)]) with (@nil xml).
    change (filter (fun s => str_eqb (x_name s) (S_ "name")) [leaf lay "persName" ([(S_ "analog", composer_analog (c_role c))] ++ more) (c_name c)]) with (@nil xml).
    change (filter (fun s => str_eqb (x_name s) (S_ "persName")) [leaf lay "persName" ([(S_ "analog", composer_analog (c_role c))] ++ more) (c_name c)]) with [leaf lay "persName" ([(S_ "analog", composer_analog (c_role c))] ++ more) (c_name c)].
    cbn [fold_left]. exact (B false f).
Qed.
Fixpoint all_adds (md : composers) (i : nat) (l : list person) : list (str * str) :=
  match l with [] => [] | c :: r => composer_adds md i c ++ all_adds md (S i) r end.
Definition rest_trimmed (md : composers) : Prop := Forall trimmed (k_col md) /\ Forall trimmed (k_cbl md) /\ Forall trimmed (k_cdl md) /\ Forall trimmed (k_cnt md).
Lemma nth_trimmed l i : Forall trimmed l -> opt_trimmed (nth_error l i).
Proof. intro F. destruct (nth_error l i) eqn:E; [|exact Logic.I]. apply nth_error_In in E. rewrite Forall_forall in F. apply F. exact E. Qed.
Lemma mads_id_inj a b : mads_id a = mads_id b -> a = b.
Proof. unfold mads_id. intro H. apply app_inv_head in H. apply show_N_inj in H. lia. Qed.

Lemma write_one lay md i k c : let a := [(S_ "analog", composer_analog (c_role c))] in
  composer_el lay birth_death md i k c
  = if info_at md i then (El (S_ "composer") (composer_cert (c_role c)) lay [leaf lay (composer_tag (c_role c)) (a ++ [(S_ "auth.uri", "#"%char :: mads_id k)]) (c_name c)] lay,
       Some (mads_el lay birth_death (mads_id k) c (nth_error (k_col md) i) (nth_error (k_cdt md) i) (nth_error (k_cbl md) i) (nth_error (k_cdl md) i) (nth_error (k_cnt md) i)))
    else (El (S_ "composer") (composer_cert (c_role c)) lay [leaf lay (composer_tag (c_role c)) (a ++ []) (c_name c)] lay, None).
Proof.
  cbv zeta. unfold composer_el, info_at. destruct (nth_error (k_cdt md) i), (nth_error (k_cbl md) i), (nth_error (k_cdl md) i), (nth_error (k_cnt md) i); reflexivity.
Qed.
Lemma mads_ids lay md l i k : exists n, map mid (snd (composer_els lay birth_death md i k l)) = map mads_id (seq k n).
Proof.
  revert i k. induction l as [|c l IH]; intros i k; [exists 0; reflexivity|]. cbn [composer_els]. rewrite write_one. cbv zeta. destruct (info_at md i).
  - destruct (IH (S i) (S k)) as (n & E). destruct (composer_els lay birth_death md (S i) (S k) l) as (es & ms). exists (S n). cbn [snd map seq] in *. rewrite E. reflexivity.
  - destruct (IH (S i) k) as (n & E). destruct (composer_els lay birth_death md (S i) k l) as (es & ms). exists n. exact E.
Qed.
Lemma read_els lay md all l i k f : lay = [] \/ layout lay -> rest_trimmed md -> Forall (fun c => trimmed (c_name c)) l ->
  NoDup (map mid all) -> incl (snd (composer_els lay birth_death md i k l)) all ->
  fold_left (rc all) (fst (composer_els lay birth_death md i k l)) f = fold_left putp (all_adds md i l) f.
Proof.
  intros L (RA & RB & RD & RN) T D. revert i k f. induction T as [|c l Tc T IH]; intros i k f I; [reflexivity|]. cbn [composer_els all_adds] in *. rewrite write_one in *. cbv zeta in *.
  rewrite fold_left_app. unfold composer_adds. cbn [fold_left].
  destruct (info_at md i).
  - specialize (IH (S i) (S k)). destruct (composer_els lay birth_death md (S i) (S k) l) as (es & ms). cbn [fst snd fold_left] in *. rewrite read_name by assumption.
    set (m := mads_el lay birth_death (mads_id k) c _ _ _ _ _) in *.
    destruct (mads_found lay all m (composer_tag (c_role c)) [(S_ "analog", composer_analog (c_role c))] (mads_id k) (c_name c) eq_refl) as [F|F]; [discriminate|exact D|apply I; left; reflexivity| |exfalso; apply F; reflexivity].
    unfold with_mads. match goal with |- context [mads_for all ?x] => replace (mads_for all x) with (Some m) by (symmetry; exact F) end. subst m. rewrite read_mads by (apply nth_trimmed; assumption). apply IH. intros x X. apply I. right. exact X.
  - specialize (IH (S i) k). destruct (composer_els lay birth_death md (S i) k l) as (es & ms). cbn [fst snd fold_left] in *. rewrite read_name by assumption.
    change (with_mads std_name range all (leaf lay (composer_tag (c_role c)) ([(S_ "analog", composer_analog (c_role c))] ++ []) (c_name c))) with (fun f : found => f). cbv beta. apply IH. exact I.
Qed.
Definition round_composers (lay : str) (md : composers) : found :=
  read_composers glyph_num glyph_name std std_name range (fst (write_composers lay birth_death md)) (snd (write_composers lay birth_death md)).
Lemma round_adds lay md : lay = [] \/ layout lay -> texts_trimmed md -> round_composers lay md = fold_left putp (all_adds md 0 (all_composers md)) [].
Proof.
  intros L (T & R). unfold round_composers, read_composers, write_composers. apply read_els; [exact L|exact R|exact T| |apply incl_refl].
  destruct (mads_ids lay md (all_composers md) 0 0) as (n & E). rewrite E. apply FinFun.Injective_map_NoDup; [exact mads_id_inj|apply seq_NoDup].
Qed.

(** *** Per key *)
Lemma sel_keyed k j l : sel k (keyed j l) = if str_eqb (humdrum ++ S_ j) (humdrum ++ S_ k) then l else [].
Proof. unfold sel, keyed. induction l as [|t l IH]; cbn [map filter fst]; destruct (str_eqb (humdrum ++ S_ j) (humdrum ++ S_ k)); try reflexivity; cbn [map snd]; [rewrite IH; reflexivity|exact IH]. Qed.
Lemma keyed_plain k l : plain_keys (keyed k l).
Proof. unfold plain_keys, keyed. apply Forall_forall. intros x X. apply in_map_iff in X. destruct X as (t & <- & _). reflexivity. Qed.
Lemma adds_plain md l i : plain_keys (all_adds md i l).
Proof.
  revert i. induction l as [|c l IH]; intro i; [constructor|]. cbn [all_adds]. apply Forall_app. split; [|apply IH]. unfold composer_adds. constructor; [apply analog_key|].
  destruct (info_at md i); [|constructor]. unfold mads_adds. repeat (apply Forall_app; split); apply keyed_plain.
Qed.
Definition name_key (k : string) : Prop := k = "COM"%string \/ k = "COA"%string \/ k = "COS"%string \/ k = "COC"%string.
Lemma sel_names k md l i : name_key k -> sel k (all_adds md i l) = names (filter (fun c => str_eqb (composer_analog (c_role c)) (humdrum ++ S_ k)) l).
Proof.
  intro K. revert i. induction l as [|c l IH]; intro i; [reflexivity|]. cbn [all_adds filter]. rewrite sel_app, IH.
  assert (Z : sel k (composer_adds md i c) = if str_eqb (composer_analog (c_role c)) (humdrum ++ S_ k) then [c_name c] else []).
  { unfold composer_adds, sel. cbn [filter fst].
    assert (Y : filter (fun x : str * str => str_eqb (fst x) (humdrum ++ S_ k)) (if info_at md i then mads_adds (nth_error (k_col md) i) (nth_error (k_cdt md) i) (nth_error (k_cbl md) i) (nth_error (k_cdl md) i) (nth_error (k_cnt md) i) else []) = []).
    { destruct (info_at md i); [|reflexivity]. apply map_eq_nil with (f := snd). change (sel k (mads_adds (nth_error (k_col md) i) (nth_error (k_cdt md) i) (nth_error (k_cbl md) i) (nth_error (k_cdl md) i) (nth_error (k_cnt md) i)) = []).
      unfold mads_adds. rewrite !sel_app, !sel_keyed. destruct K as [-> |[-> |[-> | ->]]]; reflexivity. }
    rewrite Y. destruct (str_eqb (composer_analog (c_role c)) (humdrum ++ S_ k)); reflexivity. }
  rewrite Z. destruct (str_eqb (composer_analog (c_role c)) (humdrum ++ S_ k)); reflexivity.
Qed.
Lemma filter_role k r l : Forall (role_is r) l ->
  filter (fun c => str_eqb (composer_analog (c_role c)) (humdrum ++ S_ k)) l = if str_eqb (composer_analog (S_ r)) (humdrum ++ S_ k) then l else [].
Proof.
  induction 1 as [|c l R F IH]; [destruct (str_eqb _ _); reflexivity|]. cbn [filter]. unfold role_is in R. rewrite R, IH. destruct (str_eqb _ _); reflexivity.
Qed.
Lemma skipn_nth {A} (l : list A) i : skipn i l = olist (nth_error l i) ++ skipn (S i) l.
Proof. revert i. induction l as [|x l IH]; intros [|i]; try reflexivity. cbn [skipn nth_error]. apply IH. Qed.
Lemma firstn_nth {A} (l : list A) i n : firstn (S n) (skipn i l) = olist (nth_error l i) ++ firstn n (skipn (S i) l).
Proof.
  rewrite (skipn_nth l i). destruct (nth_error l i) as [x|] eqn:E; [reflexivity|]. cbn [olist app]. apply nth_error_None in E. rewrite (skipn_all2 l) by lia. destruct n; reflexivity.
Qed.
Lemma sel_nth k md l i (g : composers -> list str) (h : str -> list str) :
  (forall i c, sel k (composer_adds md i c) = flat_map h (olist (nth_error (g md) i))) ->
  sel k (all_adds md i l) = flat_map h (firstn (length l) (skipn i (g md))).
Proof.
  intro H. revert i. induction l as [|c l IH]; intro i; [reflexivity|]. cbn [all_adds length]. rewrite sel_app, H, IH, firstn_nth, flat_map_app. reflexivity.
Qed.
Lemma analog_cases r : composer_analog r = humdrum ++ S_ "COM" \/ composer_analog r = humdrum ++ S_ "COA" \/ composer_analog r = humdrum ++ S_ "COS" \/ composer_analog r = humdrum ++ S_ "COC".
Proof. clear. unfold composer_analog. repeat match goal with |- context [str_eqb ?a ?b] => destruct (str_eqb a b) end; tauto. Qed.
Lemma sel_one k md i c : ~ name_key k ->
  (forall r, str_eqb (composer_analog r) (humdrum ++ S_ k) = false) ->
  sel k (composer_adds md i c) = if info_at md i then sel k (mads_adds (nth_error (k_col md) i) (nth_error (k_cdt md) i) (nth_error (k_cbl md) i) (nth_error (k_cdl md) i) (nth_error (k_cnt md) i)) else [].
Proof.
  intros _ A. unfold composer_adds, sel. cbn [filter fst]. rewrite A. destruct (info_at md i); reflexivity.
Qed.
End C156.

Section C156_2.
Context (glyph_num glyph_name : str -> str) (std : str -> bool) (std_name : str -> str) (range : str -> str -> option str) (birth_death : str -> str * str).
Local Notation adds := (all_adds range birth_death).
Lemma no_info_nil md i : info_at md i = false -> nth_error (k_cdt md) i = None /\ nth_error (k_cbl md) i = None /\ nth_error (k_cdl md) i = None /\ nth_error (k_cnt md) i = None.
Proof. unfold info_at. destruct (nth_error (k_cdt md) i), (nth_error (k_cbl md) i), (nth_error (k_cdl md) i), (nth_error (k_cnt md) i); intro H; try discriminate H. tauto. Qed.
Ltac no_name := let r := fresh "r" in let E := fresh "E" in intro r; destruct (analog_cases r) as [E|[E|[E|E]]]; rewrite E; reflexivity.
Ltac no_key := unfold name_key; intros [?|[?|[?|?]]]; discriminate.
Lemma flat_single {A} (l : list A) : flat_map (fun x => [x]) l = l.
Proof. induction l as [|x l IH]; [reflexivity|]. cbn [flat_map app]. rewrite IH. reflexivity. Qed.
Lemma sel_cdt md l : sel "CDT" (adds md 0 l) = flat_map (date_back range birth_death) (firstn (length l) (k_cdt md)).
Proof. apply (sel_nth range birth_death "CDT" md l 0 k_cdt). intros i0 c0. rewrite sel_one by (try no_key; no_name). destruct (info_at md i0) eqn:I0.
  - unfold mads_adds. rewrite !sel_app, !sel_keyed. cbn -[flat_map date_back olist]. rewrite !app_nil_r. reflexivity.
  - apply no_info_nil in I0. destruct I0 as (E1 & E2 & E3 & E4). rewrite E1. reflexivity.
Qed.
Lemma olist_flat {A} (o : option A) : flat_map (fun x => [x]) (olist o) = olist o.
Proof. apply flat_single. Qed.
Lemma sel_plain k md l (g : composers -> list str) :
  (forall i, info_at md i = false -> nth_error (g md) i = None) -> (forall r, str_eqb (composer_analog r) (humdrum ++ S_ k) = false) -> ~ name_key k ->
  (forall i, sel k (mads_adds range birth_death (nth_error (k_col md) i) (nth_error (k_cdt md) i) (nth_error (k_cbl md) i) (nth_error (k_cdl md) i) (nth_error (k_cnt md) i)) = olist (nth_error (g md) i)) ->
  sel k (adds md 0 l) = firstn (length l) (g md).
Proof.
  intros N A K M. rewrite (sel_nth range birth_death k md l 0 g (fun x => [x])); [apply flat_single|]. intros i c. rewrite olist_flat, sel_one by assumption.
  destruct (info_at md i) eqn:I0; [apply M|]. rewrite N by exact I0. reflexivity.
Qed.
Lemma sel_cbl md l : sel "CBL" (adds md 0 l) = firstn (length l) (k_cbl md).
Proof. apply sel_plain; [intros i H; apply no_info_nil in H; tauto|no_name|no_key|]. intro i. unfold mads_adds. rewrite !sel_app, !sel_keyed. cbn -[flat_map date_back olist]. rewrite ?app_nil_r. reflexivity. Qed.
Lemma sel_cdl md l : sel "CDL" (adds md 0 l) = firstn (length l) (k_cdl md).
Proof. apply sel_plain; [intros i H; apply no_info_nil in H; tauto|no_name|no_key|]. intro i. unfold mads_adds. rewrite !sel_app, !sel_keyed. cbn -[flat_map date_back olist]. rewrite ?app_nil_r. reflexivity. Qed.
Lemma sel_cnt md l : sel "CNT" (adds md 0 l) = firstn (length l) (k_cnt md).
Proof. apply sel_plain; [intros i H; apply no_info_nil in H; tauto|no_name|no_key|]. intro i. unfold mads_adds. rewrite !sel_app, !sel_keyed. cbn -[flat_map date_back olist]. rewrite ?app_nil_r. reflexivity. Qed.
Lemma info_described md i : info_at md i = true <-> i < described md.
Proof.
  unfold info_at, described.
  assert (Z : forall l : list str, nth_error l i = None <-> length l <= i) by (intro l; apply nth_error_None).
  pose proof (Z (k_cdt md)) as Z1. pose proof (Z (k_cbl md)) as Z2. pose proof (Z (k_cdl md)) as Z3. pose proof (Z (k_cnt md)) as Z4. clear Z.
  destruct (nth_error (k_cdt md) i), (nth_error (k_cbl md) i), (nth_error (k_cdl md) i), (nth_error (k_cnt md) i); split; intro H; try reflexivity; try discriminate H;
    repeat match goal with Z : ?x = None <-> _ |- _ => let T := constr:(x) in match T with None => destruct Z as (Z & _); specialize (Z eq_refl) | Some _ => assert (~ (length _ <= i)) by (rewrite <- Z; discriminate); clear Z end end; lia.
Qed.
Lemma sel_col md l : sel "COL" (adds md 0 l) = firstn (Nat.min (length l) (described md)) (k_col md).
Proof.
  rewrite (sel_nth range birth_death "COL" md l 0 (fun md => firstn (described md) (k_col md)) (fun x => [x])).
  - rewrite flat_single. cbn [skipn]. apply firstn_firstn.
  - intros i c. rewrite olist_flat, sel_one by (try no_key; no_name). destruct (info_at md i) eqn:I0.
    + apply info_described in I0. unfold mads_adds. rewrite !sel_app, !sel_keyed. cbn -[flat_map date_back olist]. rewrite ?app_nil_r.
      f_equal. clear -I0. revert i I0. generalize (described md) as n. generalize (k_col md) as l. induction l as [|x l IH]; intros n i H; [destruct n, i; reflexivity|]. destruct n as [|n]; [lia|]. destruct i as [|i]; [reflexivity|]. cbn [firstn nth_error]. apply IH. lia.
    + assert (D : described md <= i). { destruct (Nat.le_gt_cases (described md) i) as [L|L]; [exact L|]. apply info_described in L. congruence. }
      assert (E : nth_error (firstn (described md) (k_col md)) i = None). { apply nth_error_None. rewrite firstn_length. lia. } rewrite E. reflexivity.
Qed.

(** C156: what is found in the file again of the composers of a work and of what is known of them. *)
Theorem C156_composers lay md : lay = [] \/ layout lay -> in_order md -> texts_trimmed md ->
  let back k := texts k (round_composers glyph_num glyph_name std std_name range birth_death lay md) in
  let n := number_of_composers md in
  back "COM"%string = firsts (names (k_com md)) /\ back "COA"%string = firsts (names (k_coa md))
  /\ back "COS"%string = firsts (names (k_cos md)) /\ back "COC"%string = firsts (names (k_coc md))
  /\ back "CBL"%string = firsts (firstn n (k_cbl md)) /\ back "CDL"%string = firsts (firstn n (k_cdl md)) /\ back "CNT"%string = firsts (firstn n (k_cnt md))
  /\ back "CDT"%string = firsts (flat_map (date_back range birth_death) (firstn n (k_cdt md)))
  /\ back "COL"%string = firsts (firstn (Nat.min n (described md)) (k_col md)).
Proof.
  intros L (R1 & R2 & R3 & R4) T. cbv zeta.
  assert (B : forall k, texts k (round_composers glyph_num glyph_name std std_name range birth_death lay md) = firsts (sel k (adds md 0 (all_composers md)))).
  { intro k. rewrite round_adds by assumption. rewrite fold_texts by apply adds_plain. reflexivity. }
  assert (N : number_of_composers md = length (all_composers md)). { unfold number_of_composers, all_composers. rewrite !app_length. lia. }
  rewrite N, !B.
  rewrite sel_cbl, sel_cdl, sel_cnt, sel_cdt, sel_col.
  rewrite !sel_names by (unfold name_key; tauto). unfold all_composers. rewrite !filter_app, !(filter_role _ _ _ R1), !(filter_role _ _ _ R2), !(filter_role _ _ _ R3), !(filter_role _ _ _ R4).
  change (str_eqb (composer_analog (S_ "composer")) (humdrum ++ S_ "COM")) with true. 
  repeat match goal with |- context [str_eqb (composer_analog ?a) (humdrum ++ ?b)] => let v := eval vm_compute in (str_eqb (composer_analog a) (humdrum ++ b)) in change (str_eqb (composer_analog a) (humdrum ++ b)) with v end.
  cbn [app]. rewrite !app_nil_r. repeat (split; [reflexivity|]). reflexivity.
Qed.
(** The same for composers of whom all texts differ: everything comes back, in order, if there is no more of each than composers. *)
Theorem C156_all_back lay md : lay = [] \/ layout lay -> in_order md -> texts_trimmed md ->
  NoDup (names (k_com md)) -> NoDup (names (k_coa md)) -> NoDup (names (k_cos md)) -> NoDup (names (k_coc md)) ->
  NoDup (k_cbl md) -> NoDup (k_cdl md) -> NoDup (k_cnt md) -> NoDup (k_col md) ->
  (forall l, In l [k_cbl md; k_cdl md; k_cnt md] -> length l <= number_of_composers md) ->
  length (k_col md) <= number_of_composers md -> length (k_col md) <= described md ->
  let back k := texts k (round_composers glyph_num glyph_name std std_name range birth_death lay md) in
  back "COM"%string = names (k_com md) /\ back "COA"%string = names (k_coa md) /\ back "COS"%string = names (k_cos md) /\ back "COC"%string = names (k_coc md)
  /\ back "CBL"%string = k_cbl md /\ back "CDL"%string = k_cdl md /\ back "CNT"%string = k_cnt md /\ back "COL"%string = k_col md.
Proof.
  intros L O T N1 N2 N3 N4 N5 N6 N7 N8 H H1 H2. destruct (C156_composers lay md L O T) as (A & B & C & D & E & F & G & _ & I). cbv zeta.
  rewrite (firstn_all2 (k_cbl md)) in E by (apply H; cbn; tauto). rewrite (firstn_all2 (k_cdl md)) in F by (apply H; cbn; tauto). rewrite (firstn_all2 (k_cnt md)) in G by (apply H; cbn; tauto).
  rewrite (firstn_all2 (k_col md)) in I by lia.
  split; [etransitivity; [exact A|apply firsts_nodup; assumption]|]. split; [etransitivity; [exact B|apply firsts_nodup; assumption]|].
  split; [etransitivity; [exact C|apply firsts_nodup; assumption]|]. split; [etransitivity; [exact D|apply firsts_nodup; assumption]|].
  split; [etransitivity; [exact E|apply firsts_nodup; assumption]|]. split; [etransitivity; [exact F|apply firsts_nodup; assumption]|].
  split; [etransitivity; [exact G|apply firsts_nodup; assumption]|]. etransitivity; [exact I|apply firsts_nodup; assumption].
Qed.
End C156_2.
Print Assumptions C156_composers.
Print Assumptions C156_all_back.

(** C156: a composer of another program's file, whose element has no analog of ours: the
    certainty that it states decides whether the composer is certain, attributed or
    suspected. *)
Theorem C156_certainty glyph_num glyph_name std std_name range attrs t tail cert : std [] = false ->
  x_get (S_ "analog") attrs = [] -> x_get (S_ "type") attrs = [] -> x_get (S_ "auth.uri") attrs = [] -> x_get (S_ "cert") attrs = cert ->
  trimmed t -> t <> [] ->
  let f := read_composers glyph_num glyph_name std std_name range [El (S_ "composer") attrs t [] tail] [] in
  texts "COA" f = (if str_eqb cert (S_ "medium") then [t] else [])
  /\ texts "COS" f = (if str_eqb cert (S_ "low") then [t] else [])
  /\ texts "COM" f = (if str_eqb cert (S_ "medium") || str_eqb cert (S_ "low") then [] else [t]).
Proof.
  intros Hs Ha Hty Hu Hc Ht Hne. cbv zeta. unfold read_composers. cbn [fold_left]. unfold processComposer. cbn [x_attrs x_text x_subs filter fold_left].
  rewrite Ha, Hty, Hc. replace (strip t) with t by (symmetry; apply strip_trimmed; exact Ht).
  destruct t as [|c t]; [congruence|]. unfold with_mads, mads_for. cbn [x_attrs]. rewrite Hu. unfold person_key, usable.
  replace (starts_with humdrum []) with false by reflexivity. rewrite Hs. cbn [orb].
  change (str_eqb [] (S_ "alias")) with false. cbn iota.
  destruct (str_eqb cert (S_ "medium")) eqn:E1; [|destruct (str_eqb cert (S_ "low")) eqn:E2].
  - apply str_eqb_eq in E1. subst cert. rewrite E1. vm_compute. auto.
  - vm_compute. auto.
  - vm_compute. auto.
Qed.
Print Assumptions C156_certainty.

(** *** Cases *)
Definition g0 (s : str) : str := s.
Definition no_std (s : str) : bool := false.
(** Dates with a line between them, for the examples. *)
Definition split_dates (d : str) : str * str := match split_char "-"%char d with [a; b] => (a, b) | _ => ([], []) end.
Definition join_dates (a b : str) : option str := Some (a ++ "-"%char :: b).
Definition round0 (md : composers) : found := round_composers g0 g0 no_std g0 join_dates split_dates [] md.
Definition two := Composers [Person (S_ "Franz Schubert") (S_ "composer"); Person (S_ "Anselm") (S_ "composer")] [Person (S_ "Diabelli") (S_ "attributedComposer")] [] [] [S_ "F. S."]
  [S_ "1797-1828"] [S_ "Wien"; S_ "Graz"] [] [S_ "Oesterreich"].
Example C156_composers_nonvacuous :
  in_order two /\ texts_trimmed two
  /\ texts "COM" (round0 two) = [S_ "Franz Schubert"; S_ "Anselm"] /\ texts "COA" (round0 two) = [S_ "Diabelli"] /\ texts "COL" (round0 two) = [S_ "F. S."]
  /\ texts "CDT" (round0 two) = [S_ "1797-1828"] /\ texts "CBL" (round0 two) = [S_ "Wien"; S_ "Graz"] /\ texts "CNT" (round0 two) = [S_ "Oesterreich"].
Proof.
  split; [unfold in_order, role_is; repeat split; repeat constructor|]. split.
  - unfold texts_trimmed. cbn [k_com k_coa k_cos k_coc k_col k_cbl k_cdl k_cnt two app]. repeat split; repeat (constructor; [vm_compute; repeat split; try reflexivity; discriminate|]); constructor.
  - vm_compute. repeat (split; [reflexivity|]). reflexivity.
Qed.
Example C156_certainty_nonvacuous :
  texts "COS" (read_composers g0 g0 no_std g0 join_dates [El (S_ "composer") [(S_ "cert", S_ "low")] (S_ "Gasparini") [] []] []) = [S_ "Gasparini"].
Proof.
  refine (proj1 (proj2 (C156_certainty g0 g0 no_std g0 join_dates [(S_ "cert", S_ "low")] (S_ "Gasparini") [] (S_ "low") eq_refl eq_refl eq_refl eq_refl eq_refl _ _)));
    [vm_compute; repeat split; try reflexivity; discriminate|discriminate].
Qed.
Example C156_all_back_nonvacuous :
  NoDup (names (k_com two)) /\ NoDup (k_cbl two) /\ length (k_col two) <= described two /\ number_of_composers two = 3.
Proof. split; [repeat constructor; cbn; intuition discriminate|]. split; [repeat constructor; cbn; intuition discriminate|]. split; [cbn; lia|reflexivity]. Qed.

(** An alias is lost if nothing else is said of the composer. *)
Theorem C156_alias_lost_refuted : exists md, in_order md /\ texts_trimmed md /\ k_col md <> [] /\ length (k_col md) <= number_of_composers md
  /\ texts "COL" (round0 md) = [].
Proof.
  exists (Composers [Person (S_ "Mozart") (S_ "composer")] [] [] [] [S_ "W. A."] [] [] [] []).
  split; [unfold in_order, role_is; repeat split; repeat constructor|]. split; [|split; [discriminate|split; [cbn; lia|vm_compute; reflexivity]]].
  unfold texts_trimmed. cbn. repeat split; repeat (constructor; [vm_compute; repeat split; try reflexivity; discriminate|]); constructor.
Qed.
(** Of two composers of the same nation, or born in the same place, the second has none after reading; a third composer's goes to the second. *)
Theorem C156_same_place_refuted : exists md, in_order md /\ texts_trimmed md /\ length (k_cbl md) = number_of_composers md
  /\ nth_error (k_cbl md) 1 = Some (S_ "Wien") /\ nth_error (texts "CBL" (round0 md)) 1 = Some (S_ "Graz").
Proof.
  exists (Composers [Person (S_ "A") (S_ "composer"); Person (S_ "B") (S_ "composer"); Person (S_ "C") (S_ "composer")] [] [] [] [] [] [S_ "Wien"; S_ "Wien"; S_ "Graz"] [] []).
  split; [unfold in_order, role_is; repeat split; repeat constructor|]. split; [|split; [reflexivity|split; [reflexivity|vm_compute; reflexivity]]].
  unfold texts_trimmed. cbn. repeat split; repeat (constructor; [vm_compute; repeat split; try reflexivity; discriminate|]); constructor.
Qed.
(** The place of birth is lost if no composer is named. *)
Theorem C156_unnamed_refuted : exists md, k_com md = [] /\ k_coa md = [] /\ k_cos md = [] /\ k_coc md = [] /\ texts_trimmed md /\ k_cbl md = [S_ "Wien"] /\ texts "CBL" (round0 md) = [].
Proof.
  exists (Composers [] [] [] [] [] [] [S_ "Wien"] [] []). repeat (split; [reflexivity|]). split; [|split; [reflexivity|vm_compute; reflexivity]].
  unfold texts_trimmed. cbn. repeat split; repeat (constructor; [vm_compute; repeat split; try reflexivity; discriminate|]); constructor.
Qed.
(** A composer among the attributed ones whose role says otherwise comes back as composer. *)
Theorem C156_role_refuted : exists md, texts_trimmed md /\ names (k_coa md) = [S_ "Diabelli"] /\ texts "COA" (round0 md) = [] /\ texts "COM" (round0 md) = [S_ "Diabelli"].
Proof.
  exists (Composers [] [Person (S_ "Diabelli") (S_ "composer")] [] [] [] [] [] [] []). split; [|split; [reflexivity|split; vm_compute; reflexivity]].
  unfold texts_trimmed. cbn. repeat split; repeat (constructor; [vm_compute; repeat split; try reflexivity; discriminate|]); constructor.
Qed.
