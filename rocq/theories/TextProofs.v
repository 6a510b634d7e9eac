(** Lines and files as text. *)
From Verif Require Import PyStr PyStrProofs LayoutModel TextModel.

(** ** Specification vocabulary *)
Definition starts_with_tab (s : str) : bool := match s with c :: _ => is_tab c | [] => false end.
Definition tab_free (s : str) : bool := forallb not_tab s.

(** ** Lines *)

Lemma span_app_eq p s : s = fst (span p s) ++ snd (span p s).
Proof. symmetry. apply span_join. Qed.

Lemma all_tabs_rep s : forallb is_tab s = true -> s = rep tab (length s).
Proof.
  induction s as [|c s IH]; [reflexivity|]. cbn. intro H. apply andb_true_iff in H as [H1 H2].
  unfold is_tab in H1. apply Ascii.eqb_eq in H1; subst. unfold rep in *. cbn. f_equal. apply IH, H2.
Qed.

(** Cutting rebuilds to the text; every count but the last is positive. *)
Definition glue (l : list (str * nat)) : str := flat_map (fun tt => fst tt ++ rep tab (snd tt)) l.

Fixpoint counts_ok (l : list nat) : bool :=
  match l with [] => true | [_] => true | x :: l' => negb (x =? 0) && counts_ok l' end.

Lemma span_head_stays p c s : p c = true -> exists w, fst (span p (c :: s)) = c :: w.
Proof. intro H. cbn. rewrite H. destruct (span p s); eexists; reflexivity. Qed.

Lemma scan_spec fuel : forall s, length s <= fuel -> starts_with_tab s = false ->
  glue (scan_tokens fuel s) = s /\ counts_ok (map snd (scan_tokens fuel s)) = true /\
  forallb (fun tt => tab_free (fst tt) && match fst tt with [] => false | _ => true end) (scan_tokens fuel s) = true.
Proof.
  induction fuel as [|f IH]; intros s L N.
  - destruct s; [repeat split; reflexivity|cbn in L; lia].
  - cbn [scan_tokens]. destruct s as [|c s]; [repeat split; reflexivity|].
    cbn in N. assert (Es : span is_tab (c :: s) = ([], c :: s)) by (cbn; rewrite N; reflexivity).
    rewrite Es.
    assert (Hc : not_tab c = true) by (unfold not_tab; rewrite N; reflexivity).
    destruct (span_head_stays not_tab c s Hc) as [w Hw].
    pose proof (span_app_eq not_tab (c :: s)) as E1. pose proof (span_fst_all not_tab (c :: s)) as A1.
    pose proof (span_snd_head not_tab (c :: s)) as B1.
    destruct (span not_tab (c :: s)) as [tok s2]. cbn [fst snd] in *. subst tok.
    pose proof (span_app_eq is_tab s2) as E2. pose proof (span_fst_all is_tab s2) as A2.
    pose proof (span_snd_head is_tab s2) as B2.
    destruct (span is_tab s2) as [tabs s3]. cbn [fst snd] in *.
    assert (L3 : length s3 <= f).
    { apply (f_equal (@length ascii)) in E1. apply (f_equal (@length ascii)) in E2.
      rewrite app_length in E1, E2. cbn [length] in *. lia. }
    assert (N3 : starts_with_tab s3 = false) by (destruct s3; [reflexivity|exact B2]).
    destruct (IH s3 L3 N3) as (G & C & T).
    split; [|split].
    + cbn [glue flat_map fst snd]. fold (glue (scan_tokens f s3)). rewrite G.
      rewrite <- (all_tabs_rep tabs A2), <- app_assoc, <- E2. symmetry. exact E1.
    + cbn [map snd]. destruct s3 as [|d s3].
      * destruct f; reflexivity.
      * assert (Hd : tabs <> []).
        { intros ->. cbn in E2. subst s2. cbn in B1, N3. unfold not_tab in B1. rewrite N3 in B1. discriminate. }
        destruct (map snd (scan_tokens f (d :: s3))) as [|x l]; [reflexivity|].
        cbn [counts_ok]. destruct tabs; [congruence|]. cbn [length Nat.eqb negb]. exact C.
    + cbn [forallb fst]. rewrite T, andb_true_r. unfold tab_free. rewrite A1. reflexivity.
Qed.

Lemma repair_id l : counts_ok l = true -> repair_zeros l = l.
Proof.
  induction l as [|x l IH]; [reflexivity|]. cbn [counts_ok repair_zeros]. destruct l as [|y l]; [reflexivity|].
  intro H. apply andb_true_iff in H as [H1 H2]. apply negb_true_iff in H1. rewrite H1, (IH H2). reflexivity.
Qed.

Lemma combine_map {A B} (l : list (A * B)) : combine (map fst l) (map snd l) = l.
Proof. induction l as [|[a b] l IH]; cbn; [reflexivity|]. rewrite IH. reflexivity. Qed.

Lemma rebuild (l : list (str * nat)) : counts_ok (map snd l) = true ->
  createLineFromTokens (map fst l) (map snd l) = glue l.
Proof.
  intro C. unfold createLineFromTokens, fix_tabs. rewrite !map_length, Nat.ltb_irrefl.
  rewrite (repair_id _ C), combine_map. reflexivity.
Qed.

Theorem line_roundtrip text : starts_with_tab text = false ->
  createLineFromTokens (map fst (createTokensFromLine text)) (map snd (createTokensFromLine text)) = text.
Proof.
  intro N. unfold createTokensFromLine. destruct text as [|c s]; [reflexivity|].
  destruct (starts_with (S_ "!!") (c :: s)) eqn:E.
  - cbn [map fst snd]. unfold createLineFromTokens. cbn. rewrite !app_nil_r. reflexivity.
  - destruct (scan_spec (length (c :: s)) (c :: s) (le_n _) N) as (G & C & _).
    rewrite rebuild by exact C. exact G.
Qed.

Theorem line_tokens_wellformed text : text <> [] -> starts_with (S_ "!!") text = false ->
  forall tok, In tok (map fst (createTokensFromLine text)) -> tok <> [] /\ tab_free tok = true.
Proof.
  intros Ne Ng tok I. unfold createTokensFromLine in I. destruct text as [|c s]; [congruence|].
  rewrite Ng in I.
  assert (H : forall f s0, forallb (fun tt => tab_free (fst tt) && match fst tt with [] => false | _ => true end)
      (scan_tokens f s0) = true).
  { induction f as [|f IH]; intro s0; [reflexivity|]. cbn [scan_tokens].
    pose proof (span_snd_head is_tab s0) as B0.
    destruct (span is_tab s0) as [t0 s1]. cbn [snd] in B0. destruct s1 as [|d s1]; [reflexivity|].
    assert (Hd : not_tab d = true) by (unfold not_tab; rewrite B0; reflexivity).
    destruct (span_head_stays not_tab d s1 Hd) as [w Hw].
    pose proof (span_fst_all not_tab (d :: s1)) as A1.
    destruct (span not_tab (d :: s1)) as [tk s2]. cbn [fst] in *. subst tk.
    destruct (span is_tab s2) as [t2 s3]. cbn [forallb fst]. rewrite IH, andb_true_r.
    unfold tab_free. rewrite A1. reflexivity. }
  specialize (H (length (c :: s)) (c :: s)). rewrite forallb_forall in H.
  apply in_map_iff in I as (tt & <- & I). apply H in I. apply andb_true_iff in I as [I1 I2].
  split; [destruct (fst tt); [discriminate|discriminate]|exact I1].
Qed.

(** ** Lines built from tokens *)

Lemma rep_tabs n : forallb is_tab (rep tab n) = true.
Proof. unfold rep. induction n; [reflexivity|exact IHn]. Qed.

Lemma tab_free_head_not_tab t : t <> [] -> tab_free t = true -> starts_with_tab (t ++ []) = false /\
  exists c w, t = c :: w /\ is_tab c = false.
Proof.
  intros N T. destruct t as [|c w]; [congruence|]. cbn in T. apply andb_true_iff in T as [T _].
  unfold not_tab in T. apply negb_true_iff in T. split; [cbn; exact T|]. exists c, w. split; [reflexivity|exact T].
Qed.

Lemma scan_glue l : forall fuel, length (glue l) <= fuel ->
  forallb (fun tt => tab_free (fst tt) && match fst tt with [] => false | _ => true end) l = true ->
  counts_ok (map snd l) = true ->
  scan_tokens fuel (glue l) = l.
Proof.
  induction l as [|[t n] l IH]; intros fuel L T C.
  - destruct fuel; reflexivity.
  - cbn [forallb fst] in T. apply andb_true_iff in T as [T1 T2]. apply andb_true_iff in T1 as [T1 T3].
    assert (Nt : t <> []) by (destruct t; [discriminate|discriminate]).
    destruct (tab_free_head_not_tab t Nt T1) as [_ (c & w & -> & Hc)].
    cbn [glue flat_map fst snd] in *. fold (glue l) in *.
    rewrite !app_length in L. cbn [length] in L.
    destruct fuel as [|f]; [cbn in L; lia|]. cbn [scan_tokens].
    assert (E0 : span is_tab (((c :: w) ++ rep tab n) ++ glue l) = ([], ((c :: w) ++ rep tab n) ++ glue l)).
    { cbn. rewrite Hc. reflexivity. }
    rewrite E0. rewrite <- app_assoc. cbn [app]. rewrite app_comm_cons.
    assert (Hl : starts_with_tab (glue l) = false).
    { destruct l as [|[t' n'] l]; [reflexivity|]. cbn [forallb fst] in T2. apply andb_true_iff in T2 as [T2 _].
      apply andb_true_iff in T2 as [T2 T4]. destruct t' as [|c' w']; [discriminate|].
      destruct (tab_free_head_not_tab (c' :: w') ltac:(discriminate) T2) as [X _]. cbn in *. exact X. }
    assert (E1 : span not_tab ((c :: w) ++ rep tab n ++ glue l) = (c :: w, rep tab n ++ glue l)).
    { apply span_app_all; [exact T1|]. destruct n as [|n].
      - cbn. destruct l as [|[t' n'] l]; [exact I|]. cbn [map snd counts_ok] in C.
        apply andb_true_iff in C as [C _]. discriminate C.
      - cbn. reflexivity. }
    rewrite E1.
    assert (E2 : span is_tab (rep tab n ++ glue l) = (rep tab n, glue l)).
    { apply span_app_all; [apply rep_tabs|]. destruct (glue l); [exact I|exact Hl]. }
    rewrite E2. f_equal.
    + f_equal. unfold rep. apply repeat_length.
    + apply IH; [lia|exact T2|]. cbn [map snd] in C. destruct (map snd l) as [|x xs] eqn:E; [reflexivity|].
      cbn [counts_ok] in C. apply andb_true_iff in C as [_ C]. exact C.
Qed.

Lemma repair_length l : length (repair_zeros l) = length l.
Proof. induction l as [|x [|y l] IH]; try reflexivity. cbn [repair_zeros length] in *. rewrite IH. reflexivity. Qed.

Lemma repair_counts l : counts_ok (repair_zeros l) = true.
Proof.
  induction l as [|x [|y l] IH]; try reflexivity.
  assert (E : repair_zeros (x :: y :: l) = (if x =? 0 then 1 else x) :: repair_zeros (y :: l)) by reflexivity.
  rewrite E. pose proof (repair_length (y :: l)) as Len.
  destruct (repair_zeros (y :: l)) as [|z zs]; [discriminate|].
  cbn [counts_ok] in *. rewrite IH, andb_true_r. destruct x; reflexivity.
Qed.

Lemma set_last0_length l : length (set_last0 l) = length l.
Proof. induction l as [|x [|y l] IH]; try reflexivity. cbn [set_last0 length] in *. rewrite IH. reflexivity. Qed.

Lemma fix_tabs_length n tabs : length (fix_tabs n tabs) = n.
Proof.
  unfold fix_tabs. rewrite repair_length.
  destruct (Nat.ltb_spec (length tabs) n).
  - rewrite !app_length, repeat_length. cbn. lia.
  - destruct (Nat.ltb_spec n (length tabs)); [|lia]. rewrite set_last0_length, firstn_length. lia.
Qed.

Lemma map_fst_combine {A B} (a : list A) (b : list B) : length a = length b -> map fst (combine a b) = a.
Proof.
  revert b. induction a as [|x a IH]; intros [|y b] H; cbn in *; try reflexivity; try discriminate.
  rewrite IH by lia. reflexivity.
Qed.
Lemma map_snd_combine {A B} (a : list A) (b : list B) : length a = length b -> map snd (combine a b) = b.
Proof.
  revert b. induction a as [|x a IH]; intros [|y b] H; cbn in *; try reflexivity; try discriminate.
  rewrite IH by lia. reflexivity.
Qed.

Lemma glue_tokens_roundtrip tokens ft :
  length ft = length tokens -> counts_ok ft = true ->
  tokens <> [] -> (forall t, In t tokens -> t <> [] /\ tab_free t = true) ->
  starts_with (S_ "!!") (hd [] tokens) = false ->
  map fst (createTokensFromLine (glue (combine tokens ft))) = tokens.
Proof.
  intros Len C Ne T G.
  assert (F : forallb (fun tt => tab_free (fst tt) && match fst tt with [] => false | _ => true end)
                (combine tokens ft) = true).
  { apply forallb_forall. intros [t n] I. apply in_combine_l in I. destruct (T t I) as [T1 T2]. cbn [fst].
    rewrite T2. destruct t; [congruence|reflexivity]. }
  unfold createTokensFromLine.
  destruct tokens as [|t0 ts]; [congruence|]. destruct ft as [|n0 ns]; [discriminate|].
  destruct (T t0 (or_introl eq_refl)) as [Nt0 Tt0].
  destruct t0 as [|c w]; [congruence|].
  assert (Hh : exists r, glue (combine ((c :: w) :: ts) (n0 :: ns)) = c :: w ++ r
                          /\ match r with [] => True | d :: _ => w = [] -> d <> "!"%char end).
  { cbn [combine glue flat_map fst snd]. eexists. split; [cbn; rewrite <- app_assoc; reflexivity|].
    destruct n0 as [|n0].
    - cbn. destruct ts as [|t1 ts]; [destruct ns; exact I|]. destruct ns as [|n1 ns]; [discriminate|].
      cbn [counts_ok] in C. discriminate C.
    - cbn. intros _ E. discriminate E. }
  destruct Hh as (r & Hr & Hd). 
  assert (Sw : starts_with (S_ "!!") (glue (combine ((c :: w) :: ts) (n0 :: ns))) = false).
  { rewrite Hr. cbn [hd] in G.
    change (starts_with (S_ "!!") (c :: w)) with (Ascii.eqb "!"%char c && starts_with (S_ "!") w) in G.
    change (starts_with (S_ "!!") (c :: w ++ r)) with (Ascii.eqb "!"%char c && starts_with (S_ "!") (w ++ r)).
    destruct (Ascii.eqb "!"%char c); [|reflexivity]. cbn [andb] in *.
    destruct w as [|d w].
    - destruct r as [|e r]; [reflexivity|]. specialize (Hd eq_refl). cbn [app].
      change (starts_with (S_ "!") (e :: r)) with (Ascii.eqb "!"%char e && true).
      assert (X : Ascii.eqb "!"%char e = false) by (apply Ascii.eqb_neq; congruence). rewrite X. reflexivity.
    - exact G. }
  destruct (glue (combine ((c :: w) :: ts) (n0 :: ns))) as [|g gs] eqn:Eg; [rewrite Hr in Eg; discriminate|].
  rewrite Sw, <- Eg.
  rewrite scan_glue.
  - apply map_fst_combine. symmetry. exact Len.
  - rewrite Eg. cbn. lia.
  - exact F.
  - rewrite map_snd_combine by (symmetry; exact Len). exact C.
Qed.

Theorem tokens_roundtrip tokens tabs :
  tokens <> [] -> (forall t, In t tokens -> t <> [] /\ tab_free t = true) ->
  starts_with (S_ "!!") (hd [] tokens) = false ->
  map fst (createTokensFromLine (createLineFromTokens tokens tabs)) = tokens.
Proof.
  intros. apply (glue_tokens_roundtrip tokens (fix_tabs (length tokens) tabs)); try assumption.
  - apply fix_tabs_length.
  - unfold fix_tabs. apply repair_counts.
Qed.

(** ** Files *)

Lemma chop_newline_app s : chop_newline (s ++ [newline]) = s.
Proof.
  induction s as [|c s IH]; [reflexivity|]. cbn [app chop_newline].
  destruct (s ++ [newline]) eqn:E; [destruct s; discriminate|]. rewrite IH. reflexivity.
Qed.

Lemma chop_newline_id s : (forall r, s <> r ++ [newline]) -> chop_newline s = s.
Proof.
  induction s as [|c s IH]; intro H; [reflexivity|]. destruct s as [|d s].
  - cbn [chop_newline]. destruct (Ascii.eqb c newline) eqn:E; [|reflexivity]. apply Ascii.eqb_eq in E; subst.
    destruct (H []). reflexivity.
  - cbn [chop_newline]. f_equal. apply IH. intros r E. apply (H (c :: r)). rewrite E. reflexivity.
Qed.

Lemma until_eos_id ls : ~ In (S_ "<eos>") ls -> until_eos ls = ls.
Proof.
  induction ls as [|l ls IH]; intro H; [reflexivity|]. cbn [until_eos].
  destruct (str_eqb l (S_ "<eos>")) eqn:E.
  - apply str_eqb_eq in E. destruct H. left. exact E.
  - rewrite IH; [reflexivity|]. intro I. apply H. right. exact I.
Qed.

Lemma until_eos_stop a b : ~ In (S_ "<eos>") a -> until_eos (a ++ S_ "<eos>" :: b) = a.
Proof.
  induction a as [|l a IH]; intro H; [reflexivity|]. cbn [until_eos app].
  destruct (str_eqb l (S_ "<eos>")) eqn:E.
  - apply str_eqb_eq in E. destruct H. left. exact E.
  - rewrite IH; [reflexivity|]. intro I. apply H. right. exact I.
Qed.

Definition newline_free (l : str) : Prop := char_in newline l = false.

Lemma newline_free_forallb ls : Forall newline_free ls -> forallb (fun w => negb (char_in newline w)) ls = true.
Proof.
  intro F. apply forallb_forall. intros w I. rewrite Forall_forall in F. rewrite (F w I). reflexivity.
Qed.

Lemma write_is_join ls : ls <> [] -> file_write ls = join [newline] ls ++ [newline].
Proof.
  unfold file_write. induction ls as [|l ls IH]; intro N; [congruence|].
  destruct ls as [|m ls]; [cbn; rewrite app_nil_r; reflexivity|].
  assert (E : flat_map (fun l => l ++ [newline]) (l :: m :: ls)
              = (l ++ [newline]) ++ flat_map (fun l => l ++ [newline]) (m :: ls)) by reflexivity.
  rewrite E, IH by discriminate. cbn [join]. rewrite <- !app_assoc. reflexivity.
Qed.

(** Any lines, written and read back. *)
Theorem lines_roundtrip ls : ls <> [] -> Forall newline_free ls -> ~ In (S_ "<eos>") ls ->
  readString (file_write ls) = Some ls.
Proof.
  intros N F E. rewrite write_is_join by exact N. unfold readString.
  destruct (join [newline] ls ++ [newline]) as [|c s] eqn:X; [destruct (join [newline] ls); discriminate|].
  rewrite <- X, chop_newline_app, split_join; [|exact N|apply newline_free_forallb, F].
  rewrite until_eos_id by exact E. reflexivity.
Qed.

(** Any text, read and printed back: one final newline may go. *)
Theorem text_roundtrip text : text <> [] ->
  ~ In (S_ "<eos>") (split_char newline (chop_newline text)) ->
  exists ls, readString text = Some ls /\ Forall newline_free ls /\
    (text = file_str ls \/ text = file_str ls ++ [newline]).
Proof.
  intros N E. exists (split_char newline (chop_newline text)). unfold readString.
  destruct text as [|c s]; [congruence|]. rewrite until_eos_id by exact E. split; [reflexivity|].
  split.
  - apply Forall_forall. intros w I. pose proof (split_char_pieces newline (chop_newline (c :: s))) as P.
    rewrite forallb_forall in P. apply P in I. unfold newline_free. apply negb_true_iff. exact I.
  - unfold file_str. rewrite join_split.
    assert (D : (exists r, c :: s = r ++ [newline]) \/ (forall r, c :: s <> r ++ [newline])).
    { destruct (exists_last (l := c :: s) ltac:(discriminate)) as (r & d & Er).
      destruct (ascii_dec d newline) as [->|Nd]; [left; exists r; exact Er|right].
      intros r' E'. rewrite Er in E'. apply app_inj_tail in E' as [_ E']. congruence. }
    destruct D as [[r Er]|D].
    + right. rewrite Er, chop_newline_app. reflexivity.
    + left. rewrite chop_newline_id by exact D. reflexivity.
Qed.

(** Reading stops exactly at the first end-of-stream line. *)
Theorem eos_stops before after :
  Forall newline_free before -> Forall newline_free after -> ~ In (S_ "<eos>") before ->
  readString (file_write (before ++ S_ "<eos>" :: after)) = Some before.
Proof.
  intros F1 F2 E.
  rewrite write_is_join by (destruct before; discriminate). unfold readString.
  set (ls := before ++ S_ "<eos>" :: after).
  destruct (join [newline] ls ++ [newline]) as [|c s] eqn:X; [destruct (join [newline] ls); discriminate|].
  rewrite <- X, chop_newline_app, split_join.
  - unfold ls. rewrite until_eos_stop by exact E. reflexivity.
  - unfold ls. destruct before; discriminate.
  - apply newline_free_forallb. unfold ls. apply Forall_app. split; [exact F1|]. constructor; [reflexivity|exact F2].
Qed.

(** Reading a file and regenerating every line from its tokens. *)
Theorem file_regenerates lines : Forall (fun l => starts_with_tab l = false) lines -> regenerate lines = lines.
Proof.
  intro F. unfold regenerate. induction F as [|l ls H F IH]; [reflexivity|]. cbn [map].
  rewrite IH. f_equal. apply line_roundtrip, H.
Qed.
