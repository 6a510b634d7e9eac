(** C164, continued: the records of one name are numbered. *)
From Coq Require Import List Arith NArith Bool Ascii String Lia.
From Verif Require Import PyStr PyStrProofs DateModel LayoutModel LayoutProofs ClefModel TokenModel
  TokenProofs TokenProofs2 PropsToken NamesModel RefMetaModel PropsRefMeta.
Import ListNotations.
Local Open Scope list_scope.

(** The texts of one name, in one language. *)
Definition texts_of (n : str) (lang : option str) (trans : bool) (vs : list str) : metadata :=
  map (fun v => (n, MText (mkT v lang trans))) vs.

Lemma filter_texts n lang trans vs p b : (forall v, p (n, v) = b) ->
  filter p (texts_of n lang trans vs) = if b : bool then texts_of n lang trans vs else [].
Proof.
  intro H. induction vs as [|v vs IH]; [destruct b; reflexivity|]. cbn [texts_of map filter]. rewrite H.
  change (map _ vs) with (texts_of n lang trans vs). rewrite IH. destruct b; reflexivity.
Qed.
Lemma flat_once {A} n (X : list A) : forall hs, NoDup hs ->
  flat_map (fun h => if str_eqb n h then X else []) hs = if existsb (str_eqb n) hs then X else [].
Proof.
  induction hs as [|h hs IH]; intro D; [reflexivity|]. inversion D as [|h' hs' NI D']; subst h' hs'. cbn [flat_map existsb].
  rewrite (IH D'). destruct (str_eqb n h) eqn:E; [|reflexivity]. apply str_eqb_eq in E. subst h. cbn [orb].
  destruct (existsb (str_eqb n) hs) eqn:Y; [|apply app_nil_r]. exfalso. apply NI.
  apply existsb_exists in Y as (y & I & E). apply str_eqb_eq in E. subst y. exact I.
Qed.
Lemma order_texts n lang trans vs : write_order (texts_of n lang trans vs) = texts_of n lang trans vs.
Proof.
  unfold write_order.
  assert (ND : NoDup header_names).
  { unfold header_names. repeat (constructor; [cbn [In]; intuition discriminate|]). constructor. }
  assert (F : flat_map (fun h => filter (fun it => str_eqb (fst it) h) (texts_of n lang trans vs)) header_names
              = if is_header n then texts_of n lang trans vs else []).
  { unfold is_header. rewrite <- (flat_once n _ header_names ND). apply flat_map_ext. intro h.
    apply filter_texts. reflexivity. }
  etransitivity; [apply (f_equal2 (@app _) F (filter_texts n lang trans vs _ (negb (is_header n)) (fun v => eq_refl)))|].
  destruct (is_header n); [apply app_nil_r|reflexivity].
Qed.

Lemma count_key_text K n t : In (K, n) ref_table -> n <> [] -> count_key n (MText t) = Some (Some (K ++ lang_suffix t)).
Proof.
  intros H NN. destruct (row_facts K n H) as (_ & _ & _ & _ & _ & _ & KN). destruct (KN NN) as (NK & _).
  unfold count_key, hd_key. rewrite NK. unfold has_lang, lang_suffix.
  destruct (t_lang t) as [[|a l]|]; [rewrite app_nil_r; reflexivity|reflexivity|rewrite app_nil_r; reflexivity].
Qed.
Lemma item_line_text K n t idx : In (K, n) ref_table -> n <> [] ->
  item_line idx n (MText t) = Some (ref_line (with_index K idx ++ lang_suffix t) (value_string (MText t))).
Proof.
  intros H NN. destruct (row_facts K n H) as (_ & _ & _ & _ & _ & _ & KN). destruct (KN NN) as (NK & NL & _).
  unfold item_line, hd_key. rewrite (letters_colon (S_ "raw:") n NL eq_refl), (letters_colon (S_ "humdrumraw:") n NL eq_refl),
    (letters_colon (S_ "humdrum:") n NL eq_refl), NK. reflexivity.
Qed.
Lemma write_text fi c K n t : In (K, n) ref_table -> n <> [] -> n <> S_ "movementName" -> fi n = false ->
  write_item fi c (n, MText t)
  = Some ((K ++ lang_suffix t, (count_of c (K ++ lang_suffix t) + 1)%N) :: c,
          Some (ref_line (with_index K (count_of c (K ++ lang_suffix t)) ++ lang_suffix t) (value_string (MText t)))).
Proof.
  intros H NN NM NF. destruct (row_facts K n H) as (_ & _ & _ & _ & KL & _ & KN). destruct (KN NN) as (_ & NL & _ & NO & _).
  assert (W : write_item fi c (n, MText t) = numbered c n (MText t)).
  { unfold write_item. assert (E : str_eqb n (S_ "movementName") = false) by (now apply str_eqb_neq). rewrite E.
    destruct (is_header n); [reflexivity|].
    rewrite (letters_colon (S_ "raw:") n NL eq_refl), (letters_colon (S_ "humdrumraw:") n NL eq_refl),
      (letters_colon (S_ "humdrum:") n NL eq_refl), NF. cbn [orb].
    assert (E2 : str_eqb n (S_ "otherContributor") = false) by (now apply str_eqb_neq). rewrite E2. reflexivity. }
  rewrite W. unfold numbered. rewrite (count_key_text K n t H NN).
  destruct K as [|a K]; [discriminate KL|]. cbn [app]. rewrite (item_line_text (a :: K) n t _ H NN). reflexivity.
Qed.

(** The key of the i-th text: a number from the second on. *)
Definition nth_key (K : str) (i : nat) : str := match i with O => K | _ => K ++ show_N (N.of_nat i) end.

Lemma write_texts fi K n lang trans : In (K, n) ref_table -> n <> [] -> n <> S_ "movementName" -> fi n = false ->
  forall vs c j, count_of c (K ++ lang_suffix (mkT [] lang trans)) = N.of_nat j ->
  exists lines, write_items fi c (texts_of n lang trans vs) = Some lines /\ length lines = length vs
    /\ forall i v, nth_error vs i = Some v ->
       nth_error lines i = Some (is_header n, ref_line (nth_key K (j + i) ++ lang_suffix (mkT [] lang trans)) (flat_map nl_char v)).
Proof.
  intros H NN NM NF. induction vs as [|v vs IH]; intros c j C.
  - exists []. split; [reflexivity|]. split; [reflexivity|]. intros i v E. destruct i; discriminate E.
  - cbn [texts_of map write_items]. rewrite (write_text fi c K n (mkT v lang trans) H NN NM NF).
    change (lang_suffix (mkT v lang trans)) with (lang_suffix (mkT [] lang trans)). rewrite C.
    set (c' := (K ++ lang_suffix (mkT [] lang trans), (N.of_nat j + 1)%N) :: c).
    destruct (IH c' (S j)) as (lines & E & LN & NT).
    { subst c'. unfold count_of. cbn [assoc_str]. rewrite str_eqb_refl. lia. }
    change (map _ vs) with (texts_of n lang trans vs). rewrite E. cbn [option_map fst].
    eexists. split; [reflexivity|]. split; [cbn; rewrite LN; reflexivity|].
    intros i w E'. destruct i as [|i].
    + cbn in E'. injection E' as ->. cbn [nth_error]. rewrite value_string_data. cbn [data_of t_data]. rewrite Nat.add_0_r.
      do 4 f_equal. unfold with_index, nth_key. destruct j; [reflexivity|].
      assert (P : (0 <? N.of_nat (S j))%N = true) by (apply N.ltb_lt; lia). rewrite P. reflexivity.
    + cbn [nth_error] in *. rewrite (NT i w E'). replace (S j + i) with (j + S i) by lia. reflexivity.
Qed.

(** Several texts of one name are written in order, under the key of the name, and from the
    second on with their number. *)
Theorem C164_numbers : forall fi K n lang trans vs,
  In (K, n) ref_table -> n <> [] -> n <> S_ "movementName" -> fi n = false ->
  exists lines, write_metadata fi (texts_of n lang trans vs) = Some lines /\ length lines = length vs
    /\ forall i v, nth_error vs i = Some v ->
       nth_error lines i = Some (is_header n, S_ "!!!" ++ nth_key K i ++ lang_suffix (mkT [] lang trans) ++ S_ ":"
                                         ++ match v with [] => [] | _ => S_ " " ++ flat_map nl_char v end).
Proof.
  intros fi K n lang trans vs H NN NM NF. unfold write_metadata. rewrite order_texts.
  destruct (write_texts fi K n lang trans H NN NM NF vs [] 0 eq_refl) as (lines & E & LN & NT).
  exists lines. split; [exact E|]. split; [exact LN|].
  intros i v E'. rewrite (NT i v E'). unfold ref_line. rewrite <- !app_assoc. do 5 f_equal.
  destruct v as [|c v]; [reflexivity|]. cbn [flat_map]. unfold nl_char. destruct (Ascii.eqb c newline); reflexivity.
Qed.
Print Assumptions C164_numbers.

(** No two of these keys are the same. *)
Theorem C164_distinct : forall K n i j w, In (K, n) ref_table -> nth_key K i ++ w = nth_key K j ++ w -> i = j.
Proof.
  intros K n i j w H E. apply app_inv_tail in E.
  assert (L : forall k, nth_key K k = K ++ match k with O => [] | _ => show_N (N.of_nat k) end)
    by (intros [|k]; [symmetry; apply app_nil_r|reflexivity]).
  rewrite !L in E. apply app_inv_head in E.
  destruct i as [|i], j as [|j]; [reflexivity| | |].
  - destruct (show_N_cons (N.of_nat (S j))) as (c & s & Q & _). rewrite Q in E. discriminate E.
  - destruct (show_N_cons (N.of_nat (S i))) as (c & s & Q & _). rewrite Q in E. discriminate E.
  - apply (f_equal parse_N) in E. rewrite !parse_show_N in E. lia.
Qed.
Print Assumptions C164_distinct.

(** All movement names have the same key. *)
Theorem C164_movement_names_refuted : exists lines,
  usual_write [(S_ "movementName", txt (S_ "Allegro")); (S_ "movementName", txt (S_ "Vivace"))] = Some lines
  /\ map snd lines = [S_ "!!!OMD: Allegro"; S_ "!!!OMD: Vivace"].
Proof. exists [(true, S_ "!!!OMD: Allegro"); (true, S_ "!!!OMD: Vivace")]. split; vm_compute; reflexivity. Qed.
Print Assumptions C164_movement_names_refuted.

Example C164_numbers_nonvacuous :
  In (S_ "COM", S_ "composer") ref_table /\ usual_fileinfo (S_ "composer") = false
  /\ usual_write (texts_of (S_ "composer") (Some (S_ "de")) false [S_ "A"; S_ "B"; S_ "C"])
     = Some [(true, S_ "!!!COM@@DE: A"); (true, S_ "!!!COM1@@DE: B"); (true, S_ "!!!COM2@@DE: C")]
  /\ usual_write (texts_of (S_ "dedicatedTo") None false [S_ "A"; S_ "B"])
     = Some [(false, S_ "!!!ODE: A"); (false, S_ "!!!ODE1: B")].
Proof. split; [left; reflexivity|]. split; [reflexivity|]. split; vm_compute; reflexivity. Qed.
