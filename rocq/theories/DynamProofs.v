(** Lemmas about dynamics in Humdrum files. *)
From Coq Require Import Lia ZArith.
From Verif Require Import PyStr PyStrProofs LayoutModel LayoutProofs BarModel DateModel SignifierModel SignifierProofs DynamModel.

(** ** The forms of a dynamic *)

(** A dynamic as musicians write it: mf or mp; p, pp, ...; f, ff, ... with an s
    or r before it or a z after it; or one of those followed by a piano. *)
Inductive standard : str -> Prop :=
| std_mezzo c : c = "f"%char \/ c = "p"%char -> standard ["m"%char; c]
| std_piano n : standard (rep "p" (S n))
| std_forte pre n z : In pre [[]; S_ "s"; S_ "r"] -> In z [[]; S_ "z"] -> standard (pre ++ rep "f" (S n) ++ z)
| std_fp pre n z k : In pre [[]; S_ "s"] -> In z [[]; S_ "z"] ->
    standard (pre ++ rep "f" (S n) ++ z ++ rep "p" (S k)).

Lemma skip_all_spec c s : exists n, s = rep c n ++ skip_all c s.
Proof.
  induction s as [|x s (n & IH)]; [exists 0; reflexivity|]. cbn [skip_all].
  destruct (Ascii.eqb x c) eqn:E.
  - apply Ascii.eqb_eq in E. subst x. exists (S n). unfold rep in *. cbn [repeat app]. congruence.
  - exists 0. reflexivity.
Qed.
Lemma skip_some_spec c s r : skip_some c s = Some r -> exists n, s = rep c (S n) ++ r.
Proof.
  destruct s as [|x s]; cbn [skip_some]; [discriminate|]. destruct (Ascii.eqb x c) eqn:E; [|discriminate].
  intro H. injection H as <-. apply Ascii.eqb_eq in E. subst x. destruct (skip_all_spec c s) as (n & H).
  exists n. unfold rep in *. cbn [repeat app]. congruence.
Qed.
Lemma skip_opt_spec c s : s = skip_opt c s \/ s = c :: skip_opt c s.
Proof.
  destruct s as [|x s]; cbn; [left; reflexivity|]. destruct (Ascii.eqb x c) eqn:E; [|left; reflexivity].
  apply Ascii.eqb_eq in E. subst x. right; reflexivity.
Qed.
Lemma is_nil_eq {A} (l : list A) : is_nil l = true -> l = [].
Proof. destruct l; [reflexivity|discriminate]. Qed.

Lemma skip_all_rep c n r : match r with [] => True | x :: _ => x <> c end -> skip_all c (rep c n ++ r) = r.
Proof.
  intro H. unfold rep. induction n as [|n IH]; cbn [repeat app skip_all].
  - destruct r as [|x r]; [reflexivity|]. cbn. apply Ascii.eqb_neq in H. rewrite H. reflexivity.
  - rewrite Ascii.eqb_refl. exact IH.
Qed.
Lemma skip_some_rep c n r : match r with [] => True | x :: _ => x <> c end -> skip_some c (rep c (S n) ++ r) = Some r.
Proof. intro H. unfold rep. cbn [repeat app skip_some]. rewrite Ascii.eqb_refl. f_equal. apply (skip_all_rep c n r H). Qed.

Lemma mezzo_std w : is_mezzo w = true -> standard w.
Proof.
  unfold is_mezzo. rewrite orb_true_iff, !str_eqb_eq. intros [->| ->]; apply std_mezzo; auto.
Qed.
Lemma piano_std w : is_piano w = true -> standard w.
Proof.
  unfold is_piano. destruct (skip_some "p" w) as [r|] eqn:E; [|discriminate]. intro H. apply is_nil_eq in H. subst r.
  apply skip_some_spec in E as (n & ->). rewrite app_nil_r. apply std_piano.
Qed.
Lemma forte_std w : is_forte w = true -> standard w.
Proof.
  unfold is_forte.
  set (body := match w with [] => [] | c :: w' => if Ascii.eqb c "s" || Ascii.eqb c "r" then w' else w end).
  assert (B : exists pre, In pre [[]; S_ "s"; S_ "r"] /\ w = pre ++ body).
  { subst body. destruct w as [|c w]; [exists []; cbn; auto|].
    destruct (Ascii.eqb c "s") eqn:E1; [apply Ascii.eqb_eq in E1; subst c; exists (S_ "s"); cbn; auto|].
    destruct (Ascii.eqb c "r") eqn:E2; [apply Ascii.eqb_eq in E2; subst c; exists (S_ "r"); cbn; auto|].
    exists []; cbn; auto. }
  clearbody body. destruct B as (pre & P & ->).
  destruct (skip_some "f" body) as [r|] eqn:E; [|discriminate]. intro H. apply is_nil_eq in H.
  apply skip_some_spec in E as (n & ->).
  destruct (skip_opt_spec "z" r) as [R|R]; rewrite H in R; subst r.
  - apply (std_forte pre n []); cbn; auto.
  - apply (std_forte pre n (S_ "z")); cbn; auto.
Qed.
Lemma fp_std w : is_fp w = true -> standard w.
Proof.
  unfold is_fp. destruct (skip_some "f" (skip_opt "s" w)) as [r|] eqn:E; [|discriminate].
  destruct (skip_some "p" (skip_opt "z" r)) as [r'|] eqn:E'; [|discriminate]. intro H. apply is_nil_eq in H. subst r'.
  apply skip_some_spec in E as (n & E). apply skip_some_spec in E' as (k & E'). rewrite app_nil_r in E'.
  assert (P : exists pre, In pre [[]; S_ "s"] /\ w = pre ++ rep "f" (S n) ++ r).
  { destruct (skip_opt_spec "s" w) as [W|W]; rewrite E in W; [exists []|exists (S_ "s")]; cbn; auto. }
  destruct P as (pre & P & ->).
  destruct (skip_opt_spec "z" r) as [R|R]; rewrite E' in R; rewrite R.
  - apply (std_fp pre n [] k); cbn; auto.
  - apply (std_fp pre n (S_ "z") k); cbn; auto.
Qed.

(** A word has a pattern iff it is such a dynamic. *)
Lemma pattern_std patt w : In patt dynamicPatterns -> patt w = true -> standard w.
Proof.
  intros [<-|[<-|[<-|[<-|[]]]]] H;
    [apply mezzo_std|apply fp_std|apply forte_std|apply piano_std]; exact H.
Qed.
Lemma std_pattern w : standard w -> existsb (fun patt => patt w) dynamicPatterns = true.
Proof.
  intros [c C|n|pre n z P Z|pre n z k P Z]; apply existsb_exists.
  - exists is_mezzo. split; [cbn; auto|]. destruct C as [->| ->]; reflexivity.
  - exists is_piano. split; [cbn; auto|]. unfold is_piano. rewrite <- (app_nil_r (rep _ _)).
    rewrite skip_some_rep by exact I. reflexivity.
  - exists is_forte. split; [cbn; auto|]. unfold is_forte.
    assert (B : match pre ++ rep "f" (S n) ++ z with [] => [] | c :: w' => if Ascii.eqb c "s" || Ascii.eqb c "r" then w' else pre ++ rep "f" (S n) ++ z end
                = rep "f" (S n) ++ z).
    { destruct P as [<-|[<-|[<-|[]]]]; reflexivity. }
    rewrite B, skip_some_rep by (destruct Z as [<-|[<-|[]]]; [exact I|cbn; discriminate]).
    destruct Z as [<-|[<-|[]]]; reflexivity.
  - exists is_fp. split; [cbn; auto|]. unfold is_fp.
    assert (B : skip_opt "s" (pre ++ rep "f" (S n) ++ z ++ rep "p" (S k)) = rep "f" (S n) ++ z ++ rep "p" (S k)).
    { destruct P as [<-|[<-|[]]]; reflexivity. }
    rewrite B, skip_some_rep by (destruct Z as [<-|[<-|[]]]; cbn; discriminate).
    assert (C : skip_opt "z" (z ++ rep "p" (S k)) = rep "p" (S k) ++ []).
    { rewrite app_nil_r. destruct Z as [<-|[<-|[]]]; reflexivity. }
    rewrite C, skip_some_rep by exact I. reflexivity.
Qed.

Lemma rep_all (p : ascii -> bool) c n : p c = true -> forallb p (rep c n) = true.
Proof. intro H. unfold rep. induction n as [|n IH]; cbn; [reflexivity|]. rewrite H. exact IH. Qed.

Definition dyn_letter (c : ascii) : bool := char_in c (S_ "mfpsrz").
Lemma std_letters w : standard w -> forallb dyn_letter w = true.
Proof.
  intros [c [->| ->]|n|pre n z P Z|pre n z k P Z]; rewrite ?forallb_app, ?rep_all by reflexivity; try reflexivity.
  - destruct P as [<-|[<-|[<-|[]]]], Z as [<-|[<-|[]]]; reflexivity.
  - destruct P as [<-|[<-|[]]], Z as [<-|[<-|[]]]; reflexivity.
Qed.
Lemma std_nonempty w : standard w -> w <> [].
Proof.
  intros [c C|n|pre n z P Z|pre n z k P Z] H; try discriminate; apply app_eq_nil in H as [_ H]; discriminate.
Qed.
Lemma letter_forall (q : ascii -> bool) w : forallb q (S_ "mfpsrz") = true -> forallb dyn_letter w = true -> forallb q w = true.
Proof.
  intros Q H. rewrite forallb_forall in *. intros c I. specialize (H c I).
  unfold dyn_letter, char_in in H. apply existsb_exists in H as (x & X & E). apply Ascii.eqb_eq in E. subst x. exact (Q c X).
Qed.
Lemma std_non_space w : standard w -> forallb non_space w = true.
Proof. intro H. apply letter_forall; [reflexivity|apply std_letters, H]. Qed.
Lemma std_alpha w : standard w -> forallb is_alpha w = true.
Proof. intro H. apply letter_forall; [reflexivity|apply std_letters, H]. Qed.
Lemma std_lacks c w : char_in c (S_ "mfpsrz") = false -> standard w -> char_in c w = false.
Proof.
  intros C H. assert (F : forallb (fun x => negb (Ascii.eqb c x)) w = true).
  { apply letter_forall; [|apply std_letters, H]. unfold char_in in C. rewrite forallb_forall. intros x X.
    apply negb_true_iff. destruct (Ascii.eqb c x) eqn:E; [|reflexivity].
    enough (existsb (Ascii.eqb c) (S_ "mfpsrz") = true) by congruence. apply existsb_exists. eauto. }
  unfold char_in. clear H C. induction w as [|x w IH]; [reflexivity|]. cbn in *.
  apply andb_true_iff in F as [F1 F2]. apply negb_true_iff in F1. rewrite F1. exact (IH F2).
Qed.

Lemma filter_all {A} (p : A -> bool) l : forallb p l = true -> filter p l = l.
Proof.
  induction l as [|a l IH]; [reflexivity|]. cbn. intro H. apply andb_true_iff in H as [H1 H2]. rewrite H1, IH by exact H2. reflexivity.
Qed.
Lemma std_read w b : standard w -> dynamic_in b (letters w) = w.
Proof.
  intro H. unfold letters. rewrite filter_all by (apply std_alpha, H). unfold dynamic_in.
  pose proof (std_pattern w H) as P. cbn in P.
  destruct (is_forte w), (is_piano w), (is_mezzo w), (is_fp w), (is_single w); try reflexivity. discriminate.
Qed.

(** ** Parameters *)
Lemma split_pieces kind pieces : char_in ":" kind = false -> forallb (fun p => negb (char_in ":" p)) pieces = true ->
  split_char ":" (kind ++ flat_map (fun p => ":"%char :: p) pieces) = kind :: pieces.
Proof.
  revert kind. induction pieces as [|p ps IH]; intros kind K H; cbn [flat_map].
  - rewrite app_nil_r. apply split_char_no_sep, K.
  - cbn in H. apply andb_true_iff in H as [H1 H2]. apply negb_true_iff in H1.
    cbn [app]. rewrite split_char_app by exact K. rewrite IH by assumption. reflexivity.
Qed.
Definition n_piece (n : option nat) : list str :=
  match n with Some k => [S_ "n=" ++ show_N (N.of_nat k)] | None => [] end.
Lemma digits_lack c s : is_digit c = false -> forallb is_digit s = true -> char_in c s = false.
Proof.
  intros C. unfold char_in. induction s as [|x s IH]; [reflexivity|]. cbn. intro H. apply andb_true_iff in H as [H1 H2].
  rewrite IH by exact H2. destruct (Ascii.eqb c x) eqn:E; [|reflexivity]. apply Ascii.eqb_eq in E. subst x. congruence.
Qed.
Lemma n_piece_lacks n : forallb (fun p => negb (char_in ":" p)) (n_piece n) = true.
Proof.
  destruct n as [k|]; [|reflexivity]. cbn [n_piece forallb]. rewrite char_in_app.
  rewrite (digits_lack ":" (show_N _)) by (try reflexivity; apply show_N_digits). reflexivity.
Qed.
(** The layout comment is read as the parameters it was made of. *)
Lemma layout_read kind n params : char_in ":" kind = false -> forallb (fun p => negb (char_in ":" p)) params = true ->
  sets_of (layout_of kind n params)
  = match params with [] => [] | _ => [ParamSet (S_ "LO") kind (map name_value (n_piece n ++ params))] end.
Proof.
  intros K H. destruct params as [|p ps]; [reflexivity|]. unfold layout_of, sets_of.
  set (params := p :: ps) in *. cbn [map]. f_equal.
  assert (E : S_ "!LO:" ++ kind ++ match n with Some k => S_ ":n=" ++ show_N (N.of_nat k) | None => [] end
              ++ flat_map (fun p => ":"%char :: p) params
              = "!"%char :: (S_ "LO" ++ ":"%char :: (kind ++ flat_map (fun p => ":"%char :: p) (n_piece n ++ params)))).
  { rewrite flat_map_app. destruct n as [k|]; cbn [n_piece flat_map]; rewrite ?app_nil_r, ?app_nil_l; reflexivity. }
  rewrite E. unfold readParamString, skip_bangs.
  change (drop_bangs ("!"%char :: (S_ "LO" ++ ":"%char :: (kind ++ flat_map (fun p => ":"%char :: p) (n_piece n ++ params)))))
    with (Some (S_ "LO" ++ ":"%char :: (kind ++ flat_map (fun p => ":"%char :: p) (n_piece n ++ params)))).
  cbv iota. rewrite split_char_app by reflexivity. rewrite split_pieces; [|exact K|].
  - destruct (n_piece n ++ params) as [|q qs] eqn:Q; [|reflexivity].
    apply app_eq_nil in Q as [_ Q]. discriminate.
  - rewrite forallb_app, n_piece_lacks, H. reflexivity.
Qed.

(** Looking up a key among written parameters. *)
Lemma param_app key a b : param key (a ++ b) = match param key a with Some v => Some v | None => param key b end.
Proof. induction a as [|[k v] a IH]; [reflexivity|]. cbn. destruct (str_eqb k key); [reflexivity|exact IH]. Qed.
Lemma staff_str_cases i : staff_str i = [] \/ staff_str i = "="%char :: show_N (N.of_nat (i + 1)).
Proof. unfold staff_str. destruct (Nat.ltb 0 i); auto. Qed.

Definition justify_param (j : option justify) : list str :=
  match j with Some JRight => [S_ "rj"] | Some JCenter => [S_ "cj"] | None => [] end.
Lemma param_n key n : str_eqb (S_ "n") key = false -> param key (map name_value (n_piece n)) = None.
Proof. intro H. destruct n as [k|]; [|reflexivity]. cbn [n_piece map param].
  change (name_value (S_ "n=" ++ show_N (N.of_nat k))) with (S_ "n", show_N (N.of_nat k)). cbv beta iota. rewrite H. reflexivity. Qed.
Lemma param_place key p i : str_eqb (S_ "a") key = false -> str_eqb (S_ "b") key = false -> str_eqb (S_ "c") key = false ->
  param key (map name_value (place_param p i)) = None.
Proof.
  intros A B C. unfold place_param.
  destruct p as [[]|]; [| |destruct (Nat.eqb i 0)|]; try reflexivity;
    destruct (staff_str_cases i) as [->| ->]; cbn [map param].
  - change (name_value (S_ "a" ++ [])) with (S_ "a", S_ "true"). cbv beta iota. rewrite A. reflexivity.
  - change (name_value (S_ "a" ++ "="%char :: show_N (N.of_nat (i + 1)))) with (S_ "a", show_N (N.of_nat (i + 1))). cbv beta iota. rewrite A. reflexivity.
  - change (name_value (S_ "b" ++ [])) with (S_ "b", S_ "true"). cbv beta iota. rewrite B. reflexivity.
  - change (name_value (S_ "b" ++ "="%char :: show_N (N.of_nat (i + 1)))) with (S_ "b", show_N (N.of_nat (i + 1))). cbv beta iota. rewrite B. reflexivity.
  - change (name_value (S_ "c" ++ [])) with (S_ "c", S_ "true"). cbv beta iota. rewrite C. reflexivity.
  - change (name_value (S_ "c" ++ "="%char :: show_N (N.of_nat (i + 1)))) with (S_ "c", show_N (N.of_nat (i + 1))). cbv beta iota. rewrite C. reflexivity.
Qed.
Lemma param_justify key j : str_eqb (S_ "rj") key = false -> str_eqb (S_ "cj") key = false ->
  param key (map name_value (justify_param j)) = None.
Proof.
  intros A B. destruct j as [[]|]; [| |reflexivity]; cbn [justify_param map param].
  - change (name_value (S_ "rj")) with (S_ "rj", S_ "true"). cbv beta iota. rewrite A. reflexivity.
  - change (name_value (S_ "cj")) with (S_ "cj", S_ "true"). cbv beta iota. rewrite B. reflexivity.
Qed.

Lemma place_lacks p i : forallb (fun p => negb (char_in ":" p)) (place_param p i) = true.
Proof.
  unfold place_param. destruct p as [[]|]; [| |destruct (Nat.eqb i 0)|]; try reflexivity;
    destruct (staff_str_cases i) as [->| ->]; try reflexivity; cbn [forallb]; rewrite char_in_app;
    change (char_in ":" ("="%char :: show_N (N.of_nat (i + 1)))) with (char_in ":" (show_N (N.of_nat (i + 1))));
    rewrite (digits_lack ":" (show_N _)) by (try reflexivity; apply show_N_digits); reflexivity.
Qed.
Lemma justify_lacks j : forallb (fun p => negb (char_in ":" p)) (justify_param j) = true.
Proof. destruct j as [[]|]; reflexivity. Qed.

(** What the reader finds for a key that only the text parameter can have. *)
Lemma dynamic_param n d i key e a :
  str_eqb (S_ "a") key = false -> str_eqb (S_ "b") key = false -> str_eqb (S_ "c") key = false ->
  str_eqb (S_ "rj") key = false -> str_eqb (S_ "cj") key = false -> str_eqb (S_ "n") key = false ->
  match text_param (d_value d) with Some t => char_in ":" t = false | None => True end ->
  layout_param (sets_of (layout_of (S_ "DY") n (getDynamicParameters d i))) (S_ "DY") key e a
  = match text_param (d_value d) with
    | Some t => match param key [name_value t] with Some [] => e | Some v => v | None => a end
    | None => a
    end.
Proof.
  intros A B C R J N T. rewrite layout_read.
  2:{ reflexivity. }
  2:{ unfold getDynamicParameters. change (match d_justify d with Some JRight => _ | Some JCenter => _ | None => _ end) with (justify_param (d_justify d)).
      rewrite !forallb_app, place_lacks, justify_lacks. destruct (text_param (d_value d)) as [t|]; [|reflexivity].
      cbn. rewrite T. reflexivity. }
  assert (P : param key (map name_value (n_piece n ++ getDynamicParameters d i))
              = match text_param (d_value d) with Some t => param key [name_value t] | None => None end).
  { unfold getDynamicParameters. change (match d_justify d with Some JRight => _ | Some JCenter => _ | None => _ end) with (justify_param (d_justify d)).
    rewrite !map_app, !param_app, param_n, param_place, param_justify by assumption.
    destruct (text_param (d_value d)); reflexivity. }
  destruct (getDynamicParameters d i) as [|p ps] eqn:E.
  - destruct (text_param (d_value d)) as [t|] eqn:Et; [|reflexivity].
    unfold getDynamicParameters in E. rewrite Et in E. apply app_eq_nil in E as [_ E]. apply app_eq_nil in E as [_ E]. discriminate.
  - unfold layout_param. cbn [first_some of_kind ps_ns1 ps_ns2 ps_params]. change (str_eqb (S_ "LO") (S_ "LO") && str_eqb (S_ "DY") (S_ "DY")) with true.
    cbv iota. rewrite P. destruct (text_param (d_value d)) as [t|]; [|reflexivity]. destruct (param key [name_value t]) as [[|c v]|]; reflexivity.
Qed.

(** The value made of a token with such parameters. *)
Lemma round_value_eq n i d : let w := getDynamicString (d_value d) in
  standard w -> match text_param (d_value d) with Some t => char_in ":" t = false | None => True end ->
  round_value n i d = Some (dynamic_text (sets_of (layout_of (S_ "DY") n (getDynamicParameters d i))) w).
Proof.
  intros w W T. unfold round_value. subst w. unfold dynam_token. cbn [fold_left add_piece piece_text].
  unfold read_token. rewrite std_read by exact W. destruct (getDynamicString (d_value d)) eqn:E; [|reflexivity].
  exfalso. exact (std_nonempty _ W eq_refl).
Qed.

Definition no_text (sets : list paramset) : Prop := layout_param sets (S_ "DY") (S_ "t") [] [] = [].
Lemma in_brackets_none sets s :
  (forall key e, In key [S_ "ed"; S_ "paren"; S_ "brack"; S_ "curly"; S_ "angle"] -> layout_param sets (S_ "DY") key e [] = []) ->
  in_brackets sets s = s.
Proof.
  intro H. unfold in_brackets. rewrite (H (S_ "ed")) by (cbn; auto). cbn [contains starts_with orb S_ list_ascii_of_string].
  rewrite !H by (cbn; auto 10). reflexivity.
Qed.
