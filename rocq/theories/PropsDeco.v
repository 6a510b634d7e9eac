(** C166: staff groups survive in the system decoration when they cover the score. *)
From Coq Require Import List Arith NArith Bool Ascii String Lia Sorting.Sorted FinFun.
From Verif Require Import PyStr PyStrProofs SignifierProofs LyricProofs2 DecoModel DecoProofs DecoProofs2.
Import ListNotations.
Local Open Scope list_scope.

(** ** No empty groups, and how many staves *)
Fixpoint pairs_ok (s : str) : bool :=
  match s with
  | [] => true
  | x :: r => match r with y :: _ => negb (is_open x && is_close y) | [] => true end && pairs_ok r
  end.
Lemma pairs_not x t : is_open x = false -> pairs_ok (x :: t) = pairs_ok t.
Proof. intro O. cbn [pairs_ok]. rewrite O. destruct t; reflexivity. Qed.
Lemma pairs_open x c t : is_close c = false -> pairs_ok (x :: c :: t) = pairs_ok (c :: t).
Proof. intro C. cbn [pairs_ok]. rewrite C, andb_false_r. reflexivity. Qed.
Lemma pairs_text t : Forall (fun c => is_open c = false /\ closes c = None) t -> forall r, pairs_ok (t ++ r) = pairs_ok r.
Proof. induction 1 as [|c t [O _] F IH]; intro r; [reflexivity|]. cbn [app]. rewrite pairs_not by exact O. apply IH. Qed.
Lemma pairs_render : forall L r, plain_groups L -> pairs_ok (render L ++ r) = pairs_ok r.
Proof.
  induction L as [|n l IH|s bar i IHi l IHl]; intros r W; [reflexivity| |].
  - cbn [render]. rewrite <- app_assoc, pairs_text by apply staff_text_plain. apply IH. exact W.
  - destruct W as (NE & V & _ & Wi & Wl). destruct (render_first i Wi) as (c & t & R & C); [intros ->; apply NE; reflexivity|].
    cbn [render]. rewrite <- !app_assoc.
    transitivity (pairs_ok (render i ++ post_string s bar ++ render l ++ r)).
    + destruct s, bar; unfold pre_string; cbn [open_of S_ list_ascii_of_string app]; rewrite ?R; cbn [app];
        rewrite ?pairs_open by (exact C || reflexivity); reflexivity.
    + rewrite IHi by exact Wi. destruct s, bar; unfold post_string; cbn [close_of S_ list_ascii_of_string app];
        rewrite ?pairs_not by reflexivity; apply IHl; exact Wl.
Qed.
Lemma pairs_mentions x y s : is_open x = true -> is_close y = true -> pairs_ok s = true -> ~ mentions [x; y] s.
Proof.
  intros X Y P (a & b & E). revert s P E. induction a as [|c a IH]; intros s P E; subst s.
  - cbn [app pairs_ok] in P. rewrite X, Y in P. discriminate P.
  - cbn [app pairs_ok] in P. apply andb_prop in P. exact (IH _ (proj2 P) eq_refl).
Qed.
Lemma drop_none s : pairs_ok s = true -> drop_empty s = s.
Proof.
  intro P.
  assert (R : forall x y, is_open x = true -> is_close y = true -> replace [x; y] [] s = s).
  { intros x y X Y. unfold replace. apply replace_none; [discriminate|]. apply pairs_mentions; assumption. }
  unfold drop_empty. cbn [S_ list_ascii_of_string]. rewrite !R by reflexivity. reflexivity.
Qed.
Lemma kept_text n : filter (fun c => is_digit c || Ascii.eqb c "s") (staff_text n) = staff_text n.
Proof. apply filter_id. intros c [<-|I]; [reflexivity|]. rewrite (digits_in _ _ I). reflexivity. Qed.
Lemma kept_render : forall L, filter (fun c => is_digit c || Ascii.eqb c "s") (render L) = plain (staves_of L).
Proof.
  induction L as [|n l IH|s bar i IHi l IHl]; [reflexivity| |]; cbn [render staves_of].
  - rewrite filter_app, kept_text, IH. reflexivity.
  - rewrite !filter_app, IHi, IHl. unfold plain. rewrite flat_map_app. destruct s, bar; reflexivity.
Qed.
Lemma count_text n : count_s (staff_text n) = 1.
Proof.
  unfold count_s, staff_text. cbn [filter]. change (Ascii.eqb "s" "s") with true. cbn [length]. f_equal.
  rewrite filter_nil; [reflexivity|]. intros c I. rewrite Ascii.eqb_sym. apply (digit_facts c (digits_in _ _ I)).
Qed.
Lemma count_app a b : count_s (a ++ b) = count_s a + count_s b.
Proof. unfold count_s. rewrite filter_app. apply app_length. Qed.
Lemma count_render : forall L, count_s (render L) = length (staves_of L).
Proof.
  induction L as [|n l IH|s bar i IHi l IHl]; [reflexivity| |]; cbn [render staves_of].
  - rewrite count_app, count_text, IH. reflexivity.
  - rewrite !count_app, IHi, IHl, app_length. destruct s, bar; cbn; lia.
Qed.
Lemma outer_group s bar i l : has_sign s \/ bar = true ->
  outer (render (LGroup s bar i l)) = (length (render l) =? 0).
Proof.
  intro V. cbn [render].
  assert (K : forall o X k, is_open o = true -> closing 0 X = k -> length X = k + 1 + length (render l) ->
            outer (o :: X) = (length (render l) =? 0)).
  { intros o X k O C E. unfold outer. rewrite O, C. cbn [length andb]. rewrite E.
    destruct (length (render l)) as [|m]; cbn [Nat.eqb].
    - apply andb_true_iff. split; [apply Nat.eqb_eq|apply Nat.leb_le]; lia.
    - apply andb_false_iff. left. apply Nat.eqb_neq. lia. }
  assert (K1 : forall c X, is_open c = false -> is_close c = true -> closing 0 (render i ++ c :: X) = length (render i)).
  { intros c X O C. rewrite closing_render. cbn [closing]. rewrite O, C. lia. }
  assert (K2 : forall c X, is_open c = false -> is_close c = true ->
            closing 0 ("("%char :: render i ++ ")"%char :: c :: X) = length (render i) + 2).
  { intros c X O C. change (closing 0 ("("%char :: render i ++ ")"%char :: c :: X)) with (S (closing 1 (render i ++ ")"%char :: c :: X))).
    rewrite closing_render. change (closing 1 (")"%char :: c :: X)) with (S (closing 0 (c :: X))). cbn [closing]. rewrite O, C. lia. }
  unfold pre_string, post_string.
  destruct V as [[->|[->| ->]]| ->]; [destruct bar|destruct bar|destruct bar|destruct s];
    cbn [open_of close_of S_ list_ascii_of_string app];
    (eapply K; [reflexivity|first [apply K2; reflexivity|apply K1; reflexivity]|]);
    cbn [length]; rewrite app_length; cbn [length]; lia.
Qed.

(** ** Which staves are which *)
Lemma index_go n : forall l k i, NoDup l -> nth_error l i = Some n ->
  (fix go (i : nat) (l : list N) : option nat :=
     match l with [] => None | x :: l' => if N.eqb n x then Some i else go (S i) l' end) k l = Some (k + i).
Proof.
  induction l as [|x l IH]; intros k i D E; [destruct i; discriminate E|]. inversion D as [|x' l' NI D']; subst x' l'.
  destruct i as [|i].
  - cbn in E. injection E as ->. rewrite N.eqb_refl, Nat.add_0_r. reflexivity.
  - cbn in E. destruct (N.eqb_spec n x) as [->|]; [exfalso; apply NI; exact (nth_error_In _ _ E)|].
    rewrite (IH (S k) i D' E). f_equal. lia.
Qed.
Lemma index_position l n i : NoDup l -> nth_error l i = Some n -> index_in l n = Some i.
Proof. intros D E. exact (index_go n l 0 i D E). Qed.

(** Each staff number stands for its place in the score. *)
Definition places (staff_list : list N) (ix : N -> nat) : Prop :=
  NoDup staff_list /\ forall n, In n staff_list -> nth_error staff_list (ix n) = Some n.

(** The tree that is read: the group around everything, or one without symbol and bar lines. *)
Definition top_of (ix : N -> nat) (L : layout) : descs :=
  match L with
  | LGroup _ _ _ LEnd => descs_of ix L
  | _ => DCons NoSym false (map ix (own_of L)) (map ix (staves_of L)) (descs_of ix L) DNil
  end.

(** Before the check that every staff is there. *)
Lemma read_walk expand staff_list ix L d : places staff_list ix -> incl (staves_of L) staff_list ->
  clean d = render L -> plain_groups L -> 2 <= length (staves_of L) -> expand d = d ->
  read_deco expand staff_list d
  = if forallb (fun i => count_occ Nat.eq_dec (map ix (staves_of L)) i =? 1) (seq 0 (length staff_list))
    then Some (top_of ix L) else None.
Proof.
  intros (ND & PL) INC CL W LEN EX. unfold read_deco. rewrite EX.
  change (filter deco_char d) with (clean d). rewrite CL. clear d CL EX.
  assert (PO : pairs_ok (render L) = true) by (rewrite <- (app_nil_r (render L)); apply pairs_render; exact W).
  rewrite (drop_none _ PO), (drop_none _ PO). unfold read_dropped, read_walked. rewrite count_render.
  assert (C0 : length (staves_of L) =? 0 = false) by (apply Nat.eqb_neq; lia).
  assert (C1 : length (staves_of L) =? 1 = false) by (apply Nat.eqb_neq; lia). rewrite C0, C1.
  assert (NE : nested [] (render L) = true) by (rewrite <- (app_nil_r (render L)), nested_render; reflexivity).
  rewrite NE. cbn [negb].
  assert (IX : forall n, In n (staves_of L) -> index_in staff_list n = Some (ix n)).
  { intros n I. apply index_position; [exact ND|]. apply PL. apply INC. exact I. }
  assert (ROOT : outer (render L) = false -> top_of ix L = DCons NoSym false (map ix (own_of L)) (map ix (staves_of L)) (descs_of ix L) DNil ->
    (let o := outer (render L) in
     let start := St (if o then [] else [Fr NoSym false [] [] DNil]) DNil [] 0%N false in
     let final := walk (index_in staff_list) (render L) 0 [] start in
     if forallb (fun i => count_occ Nat.eq_dec (seen final) i =? 1) (seq 0 (length staff_list))
     then Some (if o then finished final else match groups final with f :: _ => close_frame f | [] => DNil end)
     else None)
    = if forallb (fun i => count_occ Nat.eq_dec (map ix (staves_of L)) i =? 1) (seq 0 (length staff_list))
      then Some (top_of ix L) else None).
  { intros OF T. rewrite OF. cbv beta iota zeta.
    pose proof (walk_render (index_in staff_list) ix L [] 0 [] (Fr NoSym false [] [] DNil) [] DNil [] W Logic.I IX
                  (fun _ => Logic.I) Logic.I) as K.
    rewrite app_nil_r in K.
    change (St [Fr NoSym false [] [] DNil] DNil [] 0%N false) with (mk [Fr NoSym false [] [] DNil] DNil []).
    rewrite K. cbn [walk mk groups finished seen map app]. rewrite T. reflexivity. }
  destruct L as [|n l|s bar i l]; [cbn in LEN; lia|apply ROOT; reflexivity|].
  rewrite outer_group by (exact (proj1 (proj2 W))).
  destruct (length (render l) =? 0) eqn:Z.
  - assert (Wl : plain_groups l) by (exact (proj2 (proj2 (proj2 (proj2 W))))).
    assert (l = LEnd).
    { assert (H : l = LEnd \/ l <> LEnd) by (destruct l; [left; reflexivity|right; discriminate|right; discriminate]).
      destruct H as [H|H]; [exact H|]. exfalso. destruct (render_first l Wl H) as (c & t & R & _).
      rewrite R in Z. discriminate Z. }
    subst l. destruct W as (NE' & V & NM & Wi & _). cbn [staves_of] in *. rewrite app_nil_r in *. cbn [render].
    change (St [] DNil [] 0%N false) with (mk [] DNil []).
    rewrite (walk_group (index_in staff_list) ix s bar i (walk_render _ _ i) [] 0 [] [] DNil []);
      [|exact V|exact NM|exact Wi|exact Logic.I|exact IX|intros _; exact Logic.I].
    cbn [walk]. cbn [pop mk groups map finished seen value is_staff app].
    unfold top_of. cbn [descs_of]. reflexivity.
  - pose proof (outer_group s bar i l (proj1 (proj2 W))) as OG. rewrite Z in OG. rewrite OG in ROOT. apply ROOT; [reflexivity|].
    destruct l; [cbn in Z; discriminate Z|reflexivity|reflexivity].
Qed.

Lemma sorted_nodup l : StronglySorted N.lt l -> NoDup l.
Proof.
  induction 1 as [|x l S IH F]; constructor; [|exact IH]. intro I. pose proof (proj1 (Forall_forall _ _) F x I). lia.
Qed.

Lemma covered staff_list ix L : places staff_list ix -> (forall n, In n staff_list <-> In n (staves_of L)) ->
  StronglySorted N.lt (staves_of L) ->
  (if forallb (fun i => count_occ Nat.eq_dec (map ix (staves_of L)) i =? 1) (seq 0 (length staff_list))
   then Some (top_of ix L) else None) = Some (top_of ix L).
Proof.
  intros PL COV SS.
  assert (A : forallb (fun i => count_occ Nat.eq_dec (map ix (staves_of L)) i =? 1) (seq 0 (length staff_list)) = true);
    [|rewrite A; reflexivity].
  apply forallb_forall. intros i I. apply in_seq in I. apply Nat.eqb_eq. destruct PL as (ND & PL).
  apply NoDup_count_occ'.
  - apply NoDup_map_inv with (f := fun k => nth_error staff_list k). rewrite map_map.
    rewrite (map_ext_in _ (fun n => Some n)).
    + apply FinFun.Injective_map_NoDup; [intros x y E; injection E as E; exact E|]. apply sorted_nodup. exact SS.
    + intros n J. apply PL. apply COV. exact J.
  - destruct (nth_error staff_list i) as [n|] eqn:E; [|apply nth_error_None in E; lia].
    apply in_map_iff. exists n. pose proof (nth_error_In _ _ E) as J. split; [|apply COV; exact J].
    pose proof (PL n J) as E2. apply (proj1 (NoDup_nth_error staff_list) ND (ix n) i).
    + apply nth_error_Some. rewrite E2. discriminate.
    + rewrite E2, E. reflexivity.
Qed.

(** Groups that cover the score come back: brackets, bar lines through them, what is in them. *)
Theorem C166_covering (expand : str -> str) (staff_list : list N) (ix : N -> nat) (L : layout) :
  places staff_list ix -> (forall n, In n staff_list <-> In n (staves_of L)) ->
  own_of L = [] -> StronglySorted N.lt (staves_of L) -> plain_groups L -> 2 <= length (staves_of L) ->
  expand (write_deco (trees_of L)) = write_deco (trees_of L) ->
  read_deco expand staff_list (write_deco (trees_of L)) = Some (top_of ix L).
Proof.
  intros PL COV O SS W LEN EX. rewrite (read_walk expand staff_list ix L _ PL); try assumption;
    [apply covered; assumption|intros n I; apply COV; exact I|apply write_spec; assumption].
Qed.
Print Assumptions C166_covering.

(** A group without symbol and bar lines around everything, as reading makes it, is not
    written, but then staves in no other group are: all the groups in it come back. *)
Theorem C166_rooted (expand : str -> str) (staff_list : list N) (ix : N -> nat) (L : layout) (s : symbol) :
  ~ has_sign s -> places staff_list ix -> (forall n, In n staff_list <-> In n (staves_of L)) ->
  StronglySorted N.lt (staves_of L) -> plain_groups L -> 2 <= length (staves_of L) ->
  expand (write_deco (FTree s false (staves_of L) (trees_of L) FNil)) = write_deco (FTree s false (staves_of L) (trees_of L) FNil) ->
  read_deco expand staff_list (write_deco (FTree s false (staves_of L) (trees_of L) FNil)) = Some (top_of ix L).
Proof.
  intros NS PL COV SS W LEN EX. rewrite (read_walk expand staff_list ix L _ PL); try assumption;
    [apply covered; assumption|intros n I; apply COV; exact I|].
  cbn [write_deco]. destruct (subgroups_spec L [] []) as (o & t & nums & E & K & _); [exact SS|exact W|].
  cbn [app] in E. rewrite E. destruct (staves_of L) as [|a st]; [cbn in LEN; lia|]. rewrite app_nil_r.
  assert (P : pre_string s false = [] /\ post_string s false = []).
  { unfold has_sign in NS. destruct s; try (exfalso; tauto); split; reflexivity. }
  destruct P as [P1 P2]. rewrite P1, P2, app_nil_r. cbn [app]. rewrite clean_app, clean_staves. exact K.
Qed.
Print Assumptions C166_rooted.

(** When some staff is in no group, all the groups are lost. *)
Theorem C166_uncovered (expand : str -> str) (staff_list : list N) (ix : N -> nat) (L : layout) (m : N) :
  places staff_list ix -> incl (staves_of L) staff_list -> In m staff_list -> ~ In m (staves_of L) ->
  own_of L = [] -> StronglySorted N.lt (staves_of L) -> plain_groups L -> 2 <= length (staves_of L) ->
  expand (write_deco (trees_of L)) = write_deco (trees_of L) ->
  read_deco expand staff_list (write_deco (trees_of L)) = None.
Proof.
  intros PL INC I NI O SS W LEN EX. rewrite (read_walk expand staff_list ix L _ PL); try assumption; [|apply write_spec; assumption].
  assert (A : forallb (fun i => count_occ Nat.eq_dec (map ix (staves_of L)) i =? 1) (seq 0 (length staff_list)) = false);
    [|rewrite A; reflexivity].
  destruct PL as (ND & PL). apply not_true_is_false. intro A. pose proof (proj1 (forallb_forall _ _) A (ix m)) as B.
  pose proof (PL m I) as Em.
  assert (LT : ix m < length staff_list) by (apply nth_error_Some; rewrite Em; discriminate).
  specialize (B ltac:(apply in_seq; lia)). apply Nat.eqb_eq in B.
  assert (J : In (ix m) (map ix (staves_of L))) by (apply (count_occ_In Nat.eq_dec); lia).
  apply in_map_iff in J. destruct J as (n & E & J). apply NI.
  pose proof (PL n (INC n J)) as En. rewrite E, Em in En. injection En as ->. exact J.
Qed.
Print Assumptions C166_uncovered.

(** A group around the only staff is lost. *)
Theorem C166_single (expand : str -> str) (n : N) (L : layout) :
  staves_of L = [n] -> own_of L = [] -> plain_groups L ->
  expand (write_deco (trees_of L)) = write_deco (trees_of L) ->
  read_deco expand [n] (write_deco (trees_of L)) = Some (DCons NoSym false [0] [0] DNil DNil).
Proof.
  intros E O W EX. unfold read_deco. rewrite EX.
  change (filter deco_char (write_deco (trees_of L))) with (clean (write_deco (trees_of L))).
  rewrite write_spec; [|exact O|rewrite E; repeat constructor|exact W].
  assert (PO : pairs_ok (render L) = true) by (rewrite <- (app_nil_r (render L)); apply pairs_render; exact W).
  rewrite (drop_none _ PO), (drop_none _ PO). unfold read_dropped, read_walked. rewrite count_render, E. cbn [length Nat.eqb].
  rewrite kept_render, E. unfold plain. cbn [flat_map]. rewrite app_nil_r.
  assert (NE : nested [] (staff_text n) = true).
  { rewrite <- (app_nil_r (staff_text n)), nested_text by apply staff_text_plain. reflexivity. }
  rewrite NE. cbn [negb]. assert (OU : outer (staff_text n) = false) by reflexivity. rewrite OU.
  pose proof (walk_staff (index_in [n]) (fun _ => 0) n [] 0 [] [Fr NoSym false [] [] DNil] DNil [] Logic.I) as K.
  rewrite app_nil_r in K. change (St [Fr NoSym false [] [] DNil] DNil [] 0%N false) with (mk [Fr NoSym false [] [] DNil] DNil []).
  rewrite K; [reflexivity|]. unfold index_in. rewrite N.eqb_refl. reflexivity.
Qed.
Print Assumptions C166_single.

(** ** What is lost *)

(** A voice over a piano: the brace of the piano is lost. *)
Theorem C166_voice_and_piano_refuted : exists staff_list f,
  f = FTree Brace true [2; 3]%N FNil FNil /\ staff_list = [3; 2; 1]%N
  /\ write_deco f = S_ "{(s2,s3)}" /\ read_deco (fun d => d) staff_list (write_deco f) = None.
Proof. eexists _, _. split; [reflexivity|]. split; [reflexivity|]. split; vm_compute; reflexivity. Qed.
Print Assumptions C166_voice_and_piano_refuted.

(** Different groups written alike: bar lines through a bracket, or through a group of their
    own in the bracket. *)
Theorem C166_different_refuted : exists f g, f <> g /\ write_deco f = write_deco g
  /\ read_deco (fun d => d) [2; 1]%N (write_deco f) = Some (DCons Bracket true [1; 0] [1; 0] DNil DNil)
  /\ f = FTree Bracket false [1; 2]%N (FTree NoSym true [1; 2]%N FNil FNil) FNil
  /\ g = FTree Bracket true [1; 2]%N FNil FNil.
Proof.
  exists (FTree Bracket false [1; 2]%N (FTree NoSym true [1; 2]%N FNil FNil) FNil), (FTree Bracket true [1; 2]%N FNil FNil).
  split; [discriminate|]. split; [vm_compute; reflexivity|]. split; [vm_compute; reflexivity|]. split; reflexivity.
Qed.
Print Assumptions C166_different_refuted.

(** A line around staves without bar lines through it is not written. *)
Theorem C166_line_refuted : exists f, f = FTree Line false [1; 2]%N FNil FNil
  /\ write_deco f = S_ "s1,s2" /\ read_deco (fun d => d) [2; 1]%N (write_deco f) = Some (DCons NoSym false [1; 0] [1; 0] DNil DNil).
Proof. eexists. split; [reflexivity|]. split; vm_compute; reflexivity. Qed.
Print Assumptions C166_line_refuted.

(** Four staves: a bracket around two and a braced pair inside a bracket with bar lines. *)
Definition ex_layout : layout :=
  LGroup Bracket false (LStaff 1 (LStaff 2 LEnd))
    (LGroup Line true (LStaff 3 (LGroup Brace true (LStaff 4 (LStaff 10 LEnd)) (LStaff 11 LEnd))) LEnd).
Definition ex_list : list N := [11; 10; 4; 3; 2; 1]%N.
Definition ex_ix (n : N) : nat :=
  match n with 11%N => 0 | 10%N => 1 | 4%N => 2 | 3%N => 3 | 2%N => 4 | _ => 5 end.
Example C166_nonvacuous :
  places ex_list ex_ix /\ (forall n, In n ex_list <-> In n (staves_of ex_layout)) /\ own_of ex_layout = []
  /\ StronglySorted N.lt (staves_of ex_layout) /\ plain_groups ex_layout
  /\ write_deco (trees_of ex_layout) = S_ "[s1,s2](s3{(s4,s10)}s11)"
  /\ read_deco (fun d => d) ex_list (S_ "[s1,s2](s3{(s4,s10)}s11)")
     = Some (DCons NoSym false [] [5; 4; 3; 2; 1; 0]
               (DCons Bracket false [5; 4] [5; 4] DNil
                 (DCons NoSym true [3; 0] [3; 2; 1; 0] (DCons Brace true [2; 1] [2; 1] DNil DNil) DNil)) DNil)
  /\ write_deco (FTree NoSym false [1; 2; 3] (trees_of (LStaff 1 (LGroup Brace true (LStaff 2 (LStaff 3 LEnd)) LEnd))) FNil)%N
     = S_ "s1{(s2,s3)}"
  /\ read_deco (fun d => d) [3; 2; 1]%N (S_ "s1{(s2,s3)}")
     = Some (DCons NoSym false [2] [2; 1; 0] (DCons Brace true [1; 0] [1; 0] DNil DNil) DNil)
  /\ places [3; 2; 1]%N (fun n => match n with 1%N => 2 | 2%N => 1 | _ => 0 end)
  /\ plain_groups (LGroup Brace true (LStaff 2 (LStaff 3 LEnd)) LEnd).
Proof.
  split.
  { split; [repeat (constructor; [cbn; intuition discriminate|]); constructor|].
    intros n I. cbn in I. repeat (destruct I as [<-|I]; [reflexivity|]). destruct I. }
  split; [intro n; cbn; intuition|]. split; [reflexivity|].
  split; [repeat constructor|].
  split.
  { cbn. unfold has_sign, only_bars.
    repeat split; try discriminate; try tauto; intros _ (s & i & E & _); discriminate E. }
  split; [vm_compute; reflexivity|]. split; [vm_compute; reflexivity|].
  split; [vm_compute; reflexivity|]. split; [vm_compute; reflexivity|]. split.
  - split; [repeat (constructor; [cbn; intuition discriminate|]); constructor|].
    intros n I. cbn in I. repeat (destruct I as [<-|I]; [reflexivity|]). destruct I.
  - cbn. unfold has_sign. repeat split; try discriminate; tauto.
Qed.
