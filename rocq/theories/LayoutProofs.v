(** Layout parameters and layout text. *)
From Verif Require Import PyStr PyStrProofs HashModel LayoutModel.

(** ** Specification vocabulary *)

Definition lacks (c : ascii) (s : str) : Prop := char_in c s = false.

(** A layout parameter as written: a name alone means "true". *)
Definition write_param (p : str * option str) : str :=
  match p with (n, None) => n | (n, Some v) => n ++ "="%char :: v end.
Definition param_value (p : str * option str) : str * str :=
  match p with (n, None) => (n, S_ "true") | (n, Some v) => (n, v) end.
Definition good_param (p : str * option str) : Prop :=
  lacks "="%char (fst p) /\ lacks ":"%char (fst p) /\
  match snd p with None => True | Some v => lacks ":"%char v end.

(** A text without the two-character sequence backslash-n. *)
Fixpoint no_escape_n (s : str) : bool :=
  match s with
  | a :: ((b :: _) as s') => negb (Ascii.eqb a "\"%char && Ascii.eqb b "n"%char) && no_escape_n s'
  | _ => true
  end.

Definition no_tabs (s : str) : bool :=
  forallb (fun c => negb ((N_of_ascii c =? 9)%N || (N_of_ascii c =? 13)%N
                          || (N_of_ascii c =? 11)%N || (N_of_ascii c =? 12)%N)) s.

(** Does not start or end with white space. *)
Definition trimmed (s : str) : Prop :=
  match s with [] => False | c :: _ => is_space c = false end /\
  match rev s with [] => False | c :: _ => is_space c = false end.

(** ** Parameter sets *)

Lemma split1_lacks sep s : lacks sep s -> split1 sep s = (s, None).
Proof.
  induction s as [|c s IH]; intro H; [reflexivity|]. cbn in *. unfold lacks in *. cbn in H.
  apply orb_false_iff in H as [H1 H2]. rewrite Ascii.eqb_sym, H1, (IH H2). reflexivity.
Qed.

Lemma split1_app sep n v : lacks sep n -> split1 sep (n ++ sep :: v) = (n, Some v).
Proof.
  induction n as [|c n IH]; intro H.
  - cbn. rewrite Ascii.eqb_refl. reflexivity.
  - unfold lacks in *. cbn in H. apply orb_false_iff in H as [H1 H2]. cbn.
    rewrite Ascii.eqb_sym, H1, (IH H2). reflexivity.
Qed.

Lemma name_value_write p : good_param p -> name_value (write_param p) = param_value p.
Proof.
  destruct p as [n [v|]]; intros (H1 & H2 & H3); unfold name_value, write_param; cbn in *.
  - rewrite split1_app by exact H1. reflexivity.
  - rewrite split1_lacks by exact H1. reflexivity.
Qed.

Lemma write_param_lacks p : good_param p -> lacks ":"%char (write_param p).
Proof.
  destruct p as [n [v|]]; intros (H1 & H2 & H3); cbn in *; [|exact H2].
  unfold lacks in *. rewrite char_in_app, H2. exact H3.
Qed.

Lemma drop_bangs_rep k s : match s with [] => False | c :: _ => c <> "!"%char end ->
  drop_bangs (rep "!"%char k ++ s) = Some s.
Proof.
  intro H. unfold rep. induction k as [|k IH]; cbn [repeat app drop_bangs].
  - destruct s as [|c s]; [contradiction|]. cbn. apply Ascii.eqb_neq in H. rewrite H. reflexivity.
  - exact IH.
Qed.

Lemma join_cons (sep w : str) (ws : list str) : ws <> [] -> join sep (w :: ws) = w ++ sep ++ join sep ws.
Proof. destruct ws; [congruence|reflexivity]. Qed.

Theorem readParamString_write k ns1 ns2 params :
  lacks ":"%char ns1 -> lacks ":"%char ns2 ->
  match ns1 with [] => False | c :: _ => c <> "!"%char end ->
  params <> [] -> Forall good_param params ->
  readParamString empty_paramset
    (rep "!"%char k ++ join [":"%char] (ns1 :: ns2 :: map write_param params))
  = ParamSet ns1 ns2 (map param_value params).
Proof.
  intros H1 H2 Hb Hp G.
  unfold readParamString, skip_bangs.
  rewrite drop_bangs_rep.
  2:{ destruct ns1 as [|c ns1]; [contradiction|]. exact Hb. }
  rewrite split_join.
  - destruct params as [|p ps]; [congruence|]. cbn [map app empty_paramset ps_params].
    apply Forall_cons_iff in G as [G1 G2]. rewrite (name_value_write _ G1). f_equal. f_equal.
    rewrite map_map. apply map_ext_Forall. eapply Forall_impl; [|exact G2].
    intros a Ha. apply name_value_write, Ha.
  - discriminate.
  - cbn [forallb]. rewrite H1, H2. cbn. rewrite forallb_forall. intros w I.
    apply in_map_iff in I as (p & <- & I). rewrite Forall_forall in G.
    rewrite (write_param_lacks p (G p I)). reflexivity.
Qed.

(** [setParameter] is an update of the first parameter with that name. *)
Definition lookup (name : str) (l : list (str * str)) : option str := dget name l.

Theorem setParameter_same name v l : lookup name (setParameter name v l) = Some v.
Proof.
  unfold lookup. induction l as [|[n w] l IH]; cbn.
  - rewrite str_eqb_refl. reflexivity.
  - rewrite str_eqb_sym. destruct (str_eqb name n) eqn:E; cbn; rewrite E; [reflexivity|exact IH].
Qed.

Theorem setParameter_other name other v l : other <> name ->
  lookup other (setParameter name v l) = lookup other l.
Proof.
  intro N. unfold lookup. induction l as [|[n w] l IH]; cbn.
  - apply str_eqb_neq in N. rewrite N. reflexivity.
  - destruct (str_eqb n name) eqn:E; cbn.
    + apply str_eqb_eq in E; subst. apply str_eqb_neq in N. rewrite N. reflexivity.
    + destruct (str_eqb other n); [reflexivity|exact IH].
Qed.

(** ** Text *)

Lemma lstrip_id s : match s with [] => True | c :: _ => is_space c = false end -> lstrip s = s.
Proof. destruct s as [|c s]; intro H; [reflexivity|]. cbn. rewrite H. reflexivity. Qed.

Lemma strip_trimmed s : trimmed s -> strip s = s.
Proof.
  intros [H1 H2]. unfold strip. rewrite (lstrip_id s) by (destruct s; [exact I|exact H1]).
  rewrite (lstrip_id (rev s)) by (destruct (rev s); [exact I|exact H2]). apply rev_involutive.
Qed.

Lemma trimmed_app_mid (f : ascii -> str) s :
  (forall c, is_space c = false -> match f c with [] => False | d :: _ => is_space d = false end) ->
  (forall c, is_space c = false -> match rev (f c) with [] => False | d :: _ => is_space d = false end) ->
  trimmed s -> trimmed (flat_map f s).
Proof.
  intros F1 F2 [H1 H2]. split.
  - destruct s as [|c s]; [contradiction|]. cbn. specialize (F1 c H1).
    destruct (f c); [contradiction|exact F1].
  - destruct (rev s) as [|c r] eqn:E; [contradiction|].
    apply (f_equal (@rev ascii)) in E. rewrite rev_involutive in E. cbn in E. subst s.
    rewrite flat_map_app, rev_app_distr. cbn. rewrite app_nil_r. specialize (F2 c H2).
    destruct (rev (f c)); [contradiction|exact F2].
Qed.

Lemma clean_char_edges c : is_space c = false ->
  match clean_char c with [] => False | d :: _ => is_space d = false end /\
  match rev (clean_char c) with [] => False | d :: _ => is_space d = false end.
Proof.
  destruct c as [[] [] [] [] [] [] [] []]; vm_compute; intro H; try discriminate; split; reflexivity.
Qed.

(** Newlines only. *)
Definition nl_char (c : ascii) : str := if Ascii.eqb c newline then S_ "\n" else [c].

Lemma clean_char_cases c :
  negb ((N_of_ascii c =? 9)%N || (N_of_ascii c =? 13)%N || (N_of_ascii c =? 11)%N || (N_of_ascii c =? 12)%N) = true ->
  c <> "&"%char ->
  (clean_char c = S_ "&colon;" /\ nl_char c = S_ ":") \/ (clean_char c = S_ "&nbsp;" /\ nl_char c = [nbsp]) \/
  (clean_char c = nl_char c /\ ((nl_char c = S_ "\n" /\ c = newline) \/ (nl_char c = [c] /\ c <> newline))).
Proof.
  destruct c as [[] [] [] [] [] [] [] []]; vm_compute; intros H N; try discriminate; try (destruct N; reflexivity);
    first [ left; split; reflexivity | right; left; split; reflexivity
          | right; right; split; [reflexivity|]; left; split; reflexivity
          | right; right; split; [reflexivity|]; right; split; [reflexivity|intro X; discriminate X] ].
Qed.

Lemma unescape_step_plain f c s : c <> "&"%char ->
  unescape_fuel (S f) (c :: s) = c :: unescape_fuel f s.
Proof.
  intro N. cbn [unescape_fuel].
  assert (E : Ascii.eqb "&"%char c = false).
  { apply Ascii.eqb_neq. congruence. }
  change (starts_with (S_ "&colon;") (c :: s)) with (Ascii.eqb "&"%char c && starts_with (S_ "colon;") s).
  change (starts_with (S_ "&nbsp;") (c :: s)) with (Ascii.eqb "&"%char c && starts_with (S_ "nbsp;") s).
  rewrite E. reflexivity.
Qed.

Lemma unescape_colon f s : unescape_fuel (S f) (S_ "&colon;" ++ s) = ":"%char :: unescape_fuel f s.
Proof. reflexivity. Qed.
Lemma unescape_nbsp f s : unescape_fuel (S f) (S_ "&nbsp;" ++ s) = nbsp :: unescape_fuel f s.
Proof. reflexivity. Qed.

Lemma unescape_clean c : lacks "&"%char c -> no_tabs c = true ->
  forall f, length (flat_map clean_char c) < f ->
  unescape_fuel f (flat_map clean_char c) = flat_map nl_char c.
Proof.
  unfold lacks. induction c as [|x c IH]; intros H T f L.
  - destruct f; [inversion L|reflexivity].
  - cbn in H. apply orb_false_iff in H as [H1 H2]. cbn [no_tabs forallb] in T.
    apply andb_true_iff in T as [T1 T2].
    assert (N : x <> "&"%char) by (intro E; subst; discriminate H1).
    cbn [flat_map] in *. rewrite app_length in L.
    destruct (clean_char_cases x T1 N) as [[E1 E2]|[[E1 E2]|[E1 [[E2 E3]|[E2 E3]]]]].
    + rewrite E1, E2 in *. destruct f as [|f]; [lia|]. rewrite unescape_colon, IH; [reflexivity|assumption..|].
      cbn [length S_ list_ascii_of_string] in L. lia.
    + rewrite E1, E2 in *. destruct f as [|f]; [lia|]. rewrite unescape_nbsp, IH; [reflexivity|assumption..|].
      cbn [length S_ list_ascii_of_string] in L. lia.
    + rewrite E1, E2 in *. cbn [S_ list_ascii_of_string app length] in *.
      destruct f as [|f]; [lia|]. rewrite unescape_step_plain by discriminate.
      destruct f as [|f]; [lia|]. rewrite unescape_step_plain by discriminate.
      rewrite IH; [reflexivity|assumption..|lia].
    + rewrite E1, E2 in *. cbn [app length] in *.
      destruct f as [|f]; [lia|]. rewrite unescape_step_plain by exact N.
      rewrite IH; [reflexivity|assumption..|lia].
Qed.

Lemma replace_step f a s : (a <> "\"%char \/ match s with [] => True | b :: _ => b <> "n"%char end) ->
  replace_fuel (S f) (S_ "\n") [newline] (a :: s) = a :: replace_fuel f (S_ "\n") [newline] s.
Proof.
  intro H. cbn [replace_fuel].
  replace (starts_with (S_ "\n") (a :: s)) with false; [reflexivity|].
  change (starts_with (S_ "\n") (a :: s)) with (Ascii.eqb "\"%char a && starts_with (S_ "n") s).
  symmetry. destruct (Ascii.eqb "\"%char a) eqn:E; [|reflexivity].
  apply Ascii.eqb_eq in E; subst. destruct H as [H|H]; [congruence|].
  destruct s as [|b s]; [reflexivity|]. assert (X : Ascii.eqb "n"%char b = false) by (apply Ascii.eqb_neq; congruence).
  change (starts_with (S_ "n") (b :: s)) with (Ascii.eqb "n"%char b && true). rewrite X. reflexivity.
Qed.

Lemma nl_head c s : match flat_map nl_char (c :: s) with [] => False | b :: _ => b = c \/ (c = newline /\ b = "\"%char) end.
Proof.
  cbn. unfold nl_char at 1. destruct (Ascii.eqb c newline) eqn:E.
  - apply Ascii.eqb_eq in E; subst. cbn. right; split; reflexivity.
  - cbn. left; reflexivity.
Qed.

Lemma replace_nl c : no_escape_n c = true ->
  forall f, length (flat_map nl_char c) < f ->
  replace_fuel f (S_ "\n") [newline] (flat_map nl_char c) = c.
Proof.
  induction c as [|x c IH]; intros H f L.
  - destruct f; [inversion L|reflexivity].
  - assert (Hc : no_escape_n c = true).
    { destruct c as [|y c]; [reflexivity|]. cbn in H. apply andb_true_iff in H as [_ H]. exact H. }
    assert (Hx : x <> "\"%char \/ match c with [] => True | y :: _ => y <> "n"%char end).
    { destruct c as [|y c]; [right; exact I|]. cbn [no_escape_n] in H. apply andb_true_iff in H as [H _].
      destruct (ascii_dec x "\"%char) as [->|N]; [|left; exact N]. right. intros ->. discriminate H. }
    cbn [flat_map] in *. unfold nl_char at 1 in L. unfold nl_char at 1.
    destruct (Ascii.eqb x newline) eqn:E.
    + apply Ascii.eqb_eq in E; subst x. rewrite app_length in L. destruct f as [|f]; [lia|].
      change (S_ "\n" ++ flat_map nl_char c) with ("\"%char :: "n"%char :: flat_map nl_char c).
      cbn [replace_fuel starts_with S_ list_ascii_of_string Ascii.eqb Bool.eqb andb length skipn app].
      cbn [length S_ list_ascii_of_string] in L.
      rewrite IH; [reflexivity|exact Hc|lia].
    + cbn [app length] in *. destruct f as [|f]; [lia|].
      rewrite replace_step.
      * rewrite IH; [reflexivity|exact Hc|lia].
      * destruct Hx as [Hx|Hx]; [left; exact Hx|]. right.
        destruct c as [|y c]; [exact I|]. pose proof (nl_head y c) as P.
        destruct (flat_map nl_char (y :: c)) as [|b r]; [exact I|].
        destruct P as [->|[-> ->]]; [exact Hx|discriminate].
Qed.

Lemma direction_text_extras pieces text v :
  Forall (fun p => fst (name_value p) <> S_ "t") pieces -> v <> [] ->
  direction_text (map name_value pieces ++ [(S_ "t", v)]) text = Some v.
Proof.
  intros F N. revert text. induction F as [|p ps H F IH]; intro text.
  - cbn. destruct v; [congruence|reflexivity].
  - cbn [map app direction_text]. destruct (name_value p) as [k w] eqn:E. cbn [fst] in H.
    apply str_eqb_neq in H. rewrite H. apply IH.
Qed.

Lemma flat_map_colon_join pieces last :
  flat_map (fun p => ":"%char :: p) pieces ++ ":"%char :: last
  = ":"%char :: join [":"%char] (pieces ++ [last]).
Proof.
  induction pieces as [|p ps IH]; [reflexivity|].
  cbn [flat_map app]. rewrite <- app_assoc, IH.
  rewrite (join_cons _ p (ps ++ [last])) by (destruct ps; discriminate). reflexivity.
Qed.

Lemma clean_lacks_colon s : lacks ":"%char (flat_map clean_char s).
Proof.
  unfold lacks. induction s as [|c s IH]; [reflexivity|]. cbn [flat_map]. rewrite char_in_app, IH, orb_false_r.
  destruct c as [[] [] [] [] [] [] [] []]; vm_compute; reflexivity.
Qed.

Theorem layout_text_roundtrip pieces content :
  Forall (fun p => lacks ":"%char p /\ fst (name_value p) <> S_ "t") pieces ->
  trimmed content -> lacks "&"%char content -> no_tabs content = true -> no_escape_n content = true ->
  importLayoutText (textLayoutParameter pieces content) = Some content.
Proof.
  intros P Tr A T E.
  assert (Tc : trimmed (flat_map clean_char content)).
  { apply trimmed_app_mid; [intros c H; apply (clean_char_edges c H)..|exact Tr]. }
  assert (C : cleanSpacesAndColons content = flat_map clean_char content).
  { unfold cleanSpacesAndColons. apply strip_trimmed, Tc. }
  unfold textLayoutParameter, importLayoutText. rewrite C.
  set (v := flat_map clean_char content).
  assert (R : readParamString empty_paramset
      (S_ "!LO:TX" ++ flat_map (fun p => ":"%char :: p) pieces ++ S_ ":t=" ++ v)
      = ParamSet (S_ "LO") (S_ "TX") (map name_value pieces ++ [(S_ "t", v)])).
  { change (S_ ":t=" ++ v) with (":"%char :: (S_ "t" ++ "="%char :: v)).
    rewrite flat_map_colon_join.
    change (S_ "!LO:TX" ++ ":"%char :: ?x) with ("!"%char :: (S_ "LO" ++ ":"%char :: S_ "TX" ++ ":"%char :: x)).
    unfold readParamString.
    change (skip_bangs ("!"%char :: S_ "LO" ++ ?y)) with (S_ "LO" ++ y).
    rewrite !split_char_app by reflexivity.
    rewrite split_join.
    - assert (X : map name_value (pieces ++ [S_ "t" ++ "="%char :: v])
                  = map name_value pieces ++ [(S_ "t", v)]).
      { rewrite map_app. cbn [map]. unfold name_value at 2. rewrite split1_app by reflexivity. reflexivity. }
      rewrite <- X.
      destruct pieces; reflexivity.
    - destruct pieces; discriminate.
    - rewrite forallb_app. apply andb_true_iff. split.
      + apply forallb_forall. intros w I. rewrite Forall_forall in P. destruct (P w I) as [X _].
        unfold lacks in X. rewrite X. reflexivity.
      + cbn [forallb]. rewrite char_in_app. change (char_in ":"%char (S_ "t")) with false.
        change (char_in ":"%char ("="%char :: v)) with (char_in ":"%char v).
        pose proof (clean_lacks_colon content) as K. unfold lacks in K. fold v in K. rewrite K. reflexivity. }
  rewrite R. cbn [ps_ns1 ps_ns2 ps_params].
  change (str_eqb (S_ "LO") (S_ "LO") && str_eqb (S_ "TX") (S_ "TX")) with true. cbv iota.
  rewrite direction_text_extras.
  - unfold html_unescape, replace, v. rewrite unescape_clean by (assumption || lia).
    rewrite replace_nl by (assumption || lia). rewrite strip_trimmed by exact Tr. reflexivity.
  - eapply Forall_impl; [|exact P]. intros p [_ H]. exact H.
  - intro X. unfold v in X. rewrite X in Tc. destruct Tc as [[] _].
Qed.
