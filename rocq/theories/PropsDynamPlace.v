(** C141: the place and the staff of dynamics and hairpins in Humdrum files. *)
From Coq Require Import Lia ZArith.
From Verif Require Import DateModel PyStr PyStrProofs PropsMeiLyrics LayoutModel LayoutProofs BarModel SignifierModel SignifierProofs DynamModel DynamProofs DynamProofs2.

(** ** Texts without colons are written without colons *)
Lemma lacks_in c s : char_in c s = false <-> ~ In c s.
Proof.
  induction s as [|x s IH]; [cbn; tauto|]. rewrite char_in_cons, orb_false_iff, IH, Ascii.eqb_neq. cbn [In].
  split; [intros [A B] [E|E]; [subst; now apply A|now apply B]|intro H; split; [intros ->; apply H; now left|intro I; apply H; now right]].
Qed.
Lemma span_split (p : ascii -> bool) s w r : span p s = (w, r) -> s = w ++ r.
Proof.
  revert w r. induction s as [|x s IH]; intros w r H; cbn in H; [injection H as <- <-; reflexivity|].
  destruct (p x); [|injection H as <- <-; reflexivity]. destruct (span p s) as [a b]. injection H as <- <-. cbn. f_equal. apply IH. reflexivity.
Qed.
Lemma match_word_in patt spaced before pre s f c : match_word patt spaced before pre s = Some f -> In c (f_match f) -> In c (pre ++ s).
Proof.
  unfold match_word. destruct (span non_space s) as [w r] eqn:E. apply span_split in E. subst s. intros H I.
  destruct (patt w); [|discriminate]. destruct spaced.
  - destruct r as [|x r]; [discriminate|]. injection H as <-. cbn [f_match] in I. rewrite !in_app_iff in *. cbn [In] in *. tauto.
  - destruct (at_end r); [|discriminate]. injection H as <-. cbn [f_match] in I. rewrite !in_app_iff in *. tauto.
Qed.
Lemma search_in patt d spaced v f c : search patt d spaced v = Some f -> In c (f_match f) -> In c v.
Proof.
  destruct d; cbn [search].
  - intros H I. exact (match_word_in _ _ _ _ _ _ _ H I).
  - generalize (@nil ascii) as before. induction v as [|x v IH]; intros before H I; [discriminate|]. cbn [search_spaced] in H.
    destruct (is_space x).
    + destruct (match_word patt spaced before [x] v) as [g|] eqn:M.
      * injection H as ->. exact (match_word_in _ _ _ _ _ _ _ M I).
      * right. exact (IH _ H I).
    + right. exact (IH _ H I).
Qed.
Lemma replace_first_in old new s c : In c (replace_first old new s) -> In c new \/ In c s.
Proof.
  induction s as [|x s IH]; cbn [replace_first]; intro H.
  - destruct (starts_with old []); [|destruct H]. apply in_app_or in H as [H|H]; [now left|]. destruct (length old); destruct H.
  - destruct (starts_with old (x :: s)).
    + apply in_app_or in H as [H|H]; [now left|]. right. revert H. generalize (length old) as k. intro k. generalize (x :: s) as l.
      induction k as [|k IHk]; intros l H; [exact H|]. destruct l; [destruct H|]. right. apply IHk, H.
    + destruct H as [<-|H]; [right; now left|]. destruct (IH H); [now left|right; now right].
Qed.
Lemma first_some_in {A B} (f : A -> option B) l b : first_some f l = Some b -> exists a, In a l /\ f a = Some b.
Proof.
  induction l as [|a l IH]; [discriminate|]. cbn. destruct (f a) eqn:E; intro H.
  - injection H as <-. exists a. auto.
  - destruct (IH H) as (x & I & F). exists x. auto.
Qed.
Lemma text_lacks_colon v : char_in ":" v = false -> match text_param v with Some t => char_in ":" t = false | None => True end.
Proof.
  intro H. unfold text_param. destruct (str_eqb _ v); [exact I|].
  destruct (find_bracketed v) as [[name w]|] eqn:B.
  - unfold find_bracketed in B. apply first_some_in in B as (patt & _ & B). apply first_some_in in B as ([[nm st] sp] & J & B).
    destruct (match_bracketed patt st sp v); [|discriminate]. injection B as <- _.
    destruct J as [J|[J|[J|[J|[]]]]]; injection J as <- _ _; reflexivity.
  - destruct (find_dynamic v) as [[[d spaced] f]|] eqn:F; [|exact I].
    unfold find_dynamic in F. apply first_some_in in F as ([[patt d'] spaced'] & _ & F).
    destruct (search patt d' spaced' v) as [f'|] eqn:Sf; [|discriminate]. injection F as -> -> ->.
    rewrite char_in_app. change (char_in ":" (S_ "t=")) with false. cbn [orb]. apply lacks_in. intro J. apply lacks_in in H. apply H.
    unfold format_of in J. apply replace_first_in in J as [J|J]; [exfalso; cbn in J; repeat (destruct J as [J|J]; [discriminate|]); exact J|].
    apply replace_first_in in J as [J|J]; [|exact J].
    assert (Fst : forall x, In x (firstn 1 (f_match f)) -> In x (f_match f)).
    { destruct (f_match f) as [|y l]; cbn; [tauto|]. intros x [->|[]]. now left. }
    assert (Lst : forall x, In x (last_of (f_match f)) -> In x (f_match f)).
    { unfold last_of. intros x X. apply in_rev. destruct (rev (f_match f)); [exact X|]. destruct X as [->|[]]. now left. }
    assert (Pc : forall x, In x (S_ "%s") -> x <> ":"%char). { intros x X ->. cbn in X. destruct X as [X|[X|[]]]; discriminate. }
    apply (search_in _ _ _ _ _ _ Sf).
    assert (One : forall sub : str, (forall x, In x sub -> x = ":"%char -> In x (f_match f)) ->
                  forall x, In x (if spaced then sub ++ last_of (f_match f) else sub) -> x = ":"%char -> In x (f_match f)).
    { intros sub Hs x X E. destruct spaced; [|now apply Hs]. apply in_app_or in X as [X|X]; [now apply Hs|now apply Lst]. }
    refine (One _ _ _ J eq_refl). intros x X E. destruct d; [exfalso; now apply (Pc x)|].
    apply in_app_or in X as [X|X]; [now apply Fst|exfalso; now apply (Pc x)].
Qed.

(** ** Finding the place *)
Lemma place_in_app key old a b adj : place_in key old (a ++ b) adj = match place_in key old a adj with Some v => Some v | None => place_in key old b adj end.
Proof. induction a as [|[k v] a IH]; [reflexivity|]. cbn. destruct (str_eqb k key); [reflexivity|]. destruct (str_eqb k old); [reflexivity|exact IH]. Qed.
Lemma place_in_absent key old l adj : Forall (fun x : str * str => fst x <> key /\ fst x <> old) l -> place_in key old l adj = None.
Proof.
  induction l as [|[k v] l IH]; intro H; [reflexivity|]. apply Forall_cons_iff in H as [[A B] H]. cbn [fst] in *. cbn [place_in].
  rewrite (proj2 (str_eqb_neq k key) A), (proj2 (str_eqb_neq k old) B). apply IH, H.
Qed.

(** The names of the other parameters. *)
Definition other_names : list str := [S_ "n"; S_ "rj"; S_ "cj"; S_ "ed"; S_ "t"].
Lemma other_place_in key old l adj : In key [S_ "a"; S_ "b"; S_ "c"] -> In old [S_ "Y"; S_ "Z"] ->
  Forall (fun x : str * str => In (fst x) other_names) l -> place_in key old l adj = None.
Proof.
  intros K O H. apply place_in_absent. revert H. apply Forall_impl. intros [k v]. cbn [fst]. intro H.
  cbn in K, O, H. split; intro E; subst k;
    repeat match goal with H : _ \/ _ |- _ => destruct H end; try contradiction; subst; discriminate.
Qed.
Lemma n_names n : Forall (fun x : str * str => In (fst x) other_names) (map name_value (n_piece n)).
Proof.
  destruct n as [k|]; [|constructor]. cbn [n_piece map]. change (name_value (S_ "n=" ++ show_N (N.of_nat k))) with (S_ "n", show_N (N.of_nat k)).
  constructor; [cbn; auto|constructor].
Qed.
Lemma justify_names j : Forall (fun x : str * str => In (fst x) other_names) (map name_value (justify_param j)).
Proof.
  destruct j as [[]|]; [| |constructor]; cbn [justify_param map].
  - change (name_value (S_ "rj")) with (S_ "rj", S_ "true"). constructor; [cbn; auto|constructor].
  - change (name_value (S_ "cj")) with (S_ "cj", S_ "true"). constructor; [cbn; auto|constructor].
Qed.
Definition text_list (v : str) : list str := match text_param v with Some p => [p] | None => [] end.
Lemma text_names v : Forall (fun x : str * str => fst x = S_ "ed" \/ fst x = S_ "t") (map name_value (text_list v)).
Proof.
  unfold text_list, text_param. destruct (str_eqb _ v); [constructor|].
  destruct (find_bracketed v) as [[name w]|].
  - cbn [map]. change (name_value (S_ "ed=" ++ name)) with (S_ "ed", name). constructor; [cbn; auto|constructor].
  - destruct (find_dynamic v) as [[[d sp] f]|]; [|constructor]. cbn [map].
    change (name_value (S_ "t=" ++ format_of d sp f v)) with (S_ "t", format_of d sp f v). constructor; [cbn; auto|constructor].
Qed.
Lemma text_names' v : Forall (fun x : str * str => In (fst x) other_names) (map name_value (text_list v)).
Proof. generalize (text_names v). apply Forall_impl. intros x [->| ->]; cbn; auto 10. Qed.

Lemma adj_of_show k adj : adj_of_value (show_N (N.of_nat (k + 1))) adj = (- Z.of_nat k)%Z.
Proof.
  unfold adj_of_value. set (s := show_N (N.of_nat (k + 1))).
  assert (D : forallb is_digit s = true) by apply show_N_digits.
  assert (E : py_int s = Some (Z.of_nat (k + 1))).
  { rewrite <- (py_int_show (Z.of_nat (k + 1))). f_equal. unfold s. destruct (k + 1) eqn:Q; [lia|]. reflexivity. }
  destruct s as [|c s']; [cbn in E; discriminate|]. cbn [forallb] in D. apply andb_prop in D as [Dc _].
  assert (Nt : str_eqb (c :: s') (S_ "true") = false).
  { apply str_eqb_neq. intro X. injection X as -> _. cbn in Dc. discriminate. }
  rewrite Nt, Dc, E. rewrite (proj2 (Z.eqb_neq _ _)) by lia. lia.
Qed.

Definition key_of (p : place) : str := match p with Above => S_ "a" | Below => S_ "b" | Centered => S_ "c" end.
(** The written place. *)
Lemma place_written p k : p <> Centered \/ k <> 0 ->
  exists v, map name_value (place_param (Some p) k) = [(key_of p, v)] /\ forall adj, adj = 0%Z -> adj_of_value v adj = (- Z.of_nat k)%Z.
Proof.
  intro H. assert (V : exists v, name_value (key_of p ++ staff_str k) = (key_of p, v) /\ forall adj, adj = 0%Z -> adj_of_value v adj = (- Z.of_nat k)%Z).
  { unfold staff_str. destruct (Nat.ltb_spec 0 k).
    - exists (show_N (N.of_nat (k + 1))). split; [destruct p; reflexivity|]. intros adj _. apply adj_of_show.
    - assert (k = 0) by lia. subst k. exists (S_ "true"). split; [destruct p; reflexivity|]. intros adj _. reflexivity. }
  destruct V as (v & V & A). exists v. split; [|exact A].
  unfold place_param. destruct p; cbn [key_of] in *; [cbn [map]; rewrite V; reflexivity|cbn [map]; rewrite V; reflexivity|].
  destruct (Nat.eqb_spec k 0) as [->|N]; [destruct H; congruence|]. cbn [map]. rewrite V. reflexivity.
Qed.
Lemma place_found p k v pre rest key old adj : map name_value (place_param (Some p) k) = [(key_of p, v)] ->
  Forall (fun x : str * str => In (fst x) other_names) pre -> Forall (fun x : str * str => In (fst x) other_names) rest ->
  In key [S_ "a"; S_ "b"; S_ "c"] -> In old [S_ "Y"; S_ "Z"] ->
  place_in key old (pre ++ map name_value (place_param (Some p) k) ++ rest) adj
  = if str_eqb (key_of p) key then Some (adj_of_value v adj) else None.
Proof.
  intros E P R K O. rewrite place_in_app, (other_place_in key old pre adj K O P), E. cbn [app place_in].
  destruct (str_eqb (key_of p) key); [reflexivity|].
  assert (N : str_eqb (key_of p) old = false). { destruct O as [<-|[<-|[]]]; destruct p; reflexivity. }
  rewrite N. apply other_place_in; assumption.
Qed.

Lemma own_kind kind l : of_kind kind (ParamSet (S_ "LO") kind l) = true.
Proof. unfold of_kind. cbn [ps_ns1 ps_ns2]. rewrite !str_eqb_refl. reflexivity. Qed.
Lemma asked_found kind n p k v rest centerSets adj : char_in ":" kind = false ->
  map name_value (place_param (Some p) k) = [(key_of p, v)] ->
  Forall (fun x : str * str => In (fst x) other_names) (map name_value rest) -> forallb (fun p => negb (char_in ":" p)) rest = true ->
  let sets := sets_of (layout_of kind n (place_param (Some p) k ++ rest)) in
  p <> Centered \/ centerSets = sets -> asked kind sets centerSets adj = (Some p, adj_of_value v adj).
Proof.
  intros Kk E R L sets C.
  assert (Ne : place_param (Some p) k ++ rest <> []). { intro X. apply app_eq_nil in X as [X _]. rewrite X in E. discriminate. }
  assert (Es : sets = [ParamSet (S_ "LO") kind (map name_value (n_piece n) ++ map name_value (place_param (Some p) k) ++ map name_value rest)]).
  { unfold sets. rewrite layout_read; [|exact Kk|rewrite forallb_app, place_lacks, L; reflexivity].
    destruct (place_param (Some p) k ++ rest) eqn:Q; [congruence|]. rewrite <- Q, !map_app. reflexivity. }
  assert (Hp : forall key old, In key [S_ "a"; S_ "b"; S_ "c"] -> In old [S_ "Y"; S_ "Z"] ->
               hasPlaceParameter key old sets kind adj = if str_eqb (key_of p) key then Some (adj_of_value v adj) else None).
  { intros key old K O. rewrite Es. unfold hasPlaceParameter. cbn [first_some ps_params]. rewrite own_kind.
    rewrite (place_found p k v _ _ key old adj E (n_names n) R K O). destruct (str_eqb (key_of p) key); reflexivity. }
  unfold asked. rewrite !Hp by (cbn; auto).
  destruct p; cbn [key_of].
  - change (str_eqb (S_ "a") (S_ "a")) with true. reflexivity.
  - change (str_eqb (S_ "b") (S_ "a")) with false. change (str_eqb (S_ "b") (S_ "b")) with true. reflexivity.
  - change (str_eqb (S_ "c") (S_ "a")) with false. change (str_eqb (S_ "c") (S_ "b")) with false.
    destruct C as [C|C]; [congruence|]. rewrite C, Hp by (cbn; auto). reflexivity.
Qed.
Lemma asked_none kind n rest adj : char_in ":" kind = false ->
  Forall (fun x : str * str => In (fst x) other_names) (map name_value rest) -> forallb (fun p => negb (char_in ":" p)) rest = true ->
  asked kind (sets_of (layout_of kind n rest)) [] adj = (None, adj)
  /\ asked kind (sets_of (layout_of kind n rest)) (sets_of (layout_of kind n rest)) adj = (None, adj).
Proof.
  intros Kk R L.
  assert (Hp : forall key old, In key [S_ "a"; S_ "b"; S_ "c"] -> In old [S_ "Y"; S_ "Z"] ->
               hasPlaceParameter key old (sets_of (layout_of kind n rest)) kind adj = None).
  { intros key old K O. rewrite layout_read by assumption. destruct rest as [|q qs]; [reflexivity|].
    unfold hasPlaceParameter. cbn [first_some ps_params]. rewrite own_kind.
    rewrite map_app, place_in_app, (other_place_in key old _ adj K O (n_names n)), (other_place_in key old _ adj K O R). reflexivity. }
  unfold asked. rewrite !Hp by (cbn; auto). split; reflexivity.
Qed.

(** ** Finding the justification *)
Lemma justify_read n d k : char_in ":" (d_value d) = false ->
  read_justify (sets_of (layout_of (S_ "DY") n (getDynamicParameters d k))) = d_justify d.
Proof.
  intro H. pose proof (text_lacks_colon _ H) as T.
  assert (Params : getDynamicParameters d k = place_param (d_place d) k ++ justify_param (d_justify d) ++ text_list (d_value d)) by reflexivity.
  assert (Hp : forall key, In key [S_ "rj"; S_ "cj"] ->
     layout_param (sets_of (layout_of (S_ "DY") n (getDynamicParameters d k))) (S_ "DY") key [] []
     = match param key (map name_value (justify_param (d_justify d))) with Some w => w | None => [] end).
  { intros key K. rewrite layout_read; [|reflexivity|].
    2:{ rewrite Params, !forallb_app, place_lacks, justify_lacks. unfold text_list. destruct (text_param (d_value d)); [|reflexivity]. cbn. rewrite T. reflexivity. }
    assert (P : param key (map name_value (n_piece n ++ getDynamicParameters d k)) = param key (map name_value (justify_param (d_justify d)))).
    { rewrite Params, !map_app, !param_app, param_n, param_place by (destruct K as [<-|[<-|[]]]; reflexivity).
      assert (Tn : param key (map name_value (text_list (d_value d))) = None).
      { pose proof (text_names (d_value d)) as Q. revert Q. generalize (map name_value (text_list (d_value d))). intro l.
        induction l as [|[a b] l IH]; intro Q; [reflexivity|]. apply Forall_cons_iff in Q as [Qa Q]. cbn [fst] in Qa. cbn [param].
        assert (N : str_eqb a key = false) by (destruct Qa as [->| ->]; destruct K as [<-|[<-|[]]]; reflexivity). rewrite N. apply IH, Q. }
      rewrite Tn. destruct (param key (map name_value (justify_param (d_justify d)))); reflexivity. }
    destruct (getDynamicParameters d k) as [|q qs] eqn:E.
    - assert (Z : justify_param (d_justify d) = []) by (symmetry in Params; apply app_eq_nil in Params as [_ Params]; apply app_eq_nil in Params as [Params _]; exact Params).
      rewrite Z. reflexivity.
    - unfold layout_param. cbn [first_some of_kind ps_ns1 ps_ns2 ps_params]. change (str_eqb (S_ "LO") (S_ "LO") && str_eqb (S_ "DY") (S_ "DY")) with true. cbv iota.
      rewrite P. destruct (param key (map name_value (justify_param (d_justify d)))) as [[|c w]|]; reflexivity. }
  unfold read_justify. rewrite !Hp by (cbn; auto). destruct (d_justify d) as [[]|]; reflexivity.
Qed.

(** ** C141 *)

Lemma staff_here top k count : top + k < count -> new_staff top count (- Z.of_nat k) = Z.of_nat (top + k).
Proof. intro H. unfold new_staff. lia. Qed.

(** The rest of the file says nothing about the place of the dynamics of the
    staff except whether they are centred. *)
Definition unforced (ss : staff_state) : Prop := dynamPos ss = 0%Z /\ dynamStaffAdj ss = 0%Z.

(** A dynamic placed above or below any staff of its part is read so placed, at
    that staff, with the justification it had. *)
Theorem C141_dynamics_partial : forall ss n d p k top count noteSets,
  unforced ss -> char_in ":" (d_value d) = false -> d_place d = Some p -> p <> Centered -> top + k < count ->
  round_place ss n d k top count noteSets = (Some p, Z.of_nat (top + k), d_justify d).
Proof.
  intros ss n d p k top count noteSets [U1 U2] H P C L. unfold round_place.
  destruct (place_written p k (or_introl C)) as (v & E & A).
  assert (Params : getDynamicParameters d k = place_param (Some p) k ++ justify_param (d_justify d) ++ text_list (d_value d)) by (rewrite <- P; reflexivity).
  pose proof (justify_read n d k H) as J. rewrite Params in *.
  rewrite (asked_found (S_ "DY") n p k v _ noteSets (dynamStaffAdj ss) eq_refl E).
  - rewrite J, (A _ U2), (staff_here _ _ _ L). f_equal. f_equal. unfold dynamic_place. rewrite U1.
    destruct p; [reflexivity| |congruence]. cbn. destruct (dynamPosDefined ss), (hasLyrics ss); reflexivity.
  - rewrite map_app. apply Forall_app. split; [apply justify_names|apply text_names'].
  - rewrite forallb_app, justify_lacks. pose proof (text_lacks_colon _ H) as T. unfold text_list. destruct (text_param (d_value d)); [|reflexivity]. cbn. rewrite T. reflexivity.
  - left. exact C.
Qed.
Print Assumptions C141_dynamics_partial.

(** A hairpin placed above or below any staff of its part, or centred under one
    of its lower staves, is read so placed, at that staff. *)
Theorem C141_hairpins_partial : forall ss n p k top count,
  unforced ss -> p <> Centered \/ k <> 0 -> top + k < count ->
  round_wedge_place ss n (Some p) k top count = (Some p, Z.of_nat (top + k)).
Proof.
  intros ss n p k top count [U1 U2] C L. unfold round_wedge_place.
  destruct (place_written p k C) as (v & E & A).
  rewrite <- (app_nil_r (place_param (Some p) k)).
  rewrite (asked_found (S_ "HP") n p k v [] _ (dynamStaffAdj ss) eq_refl E); [|constructor|reflexivity|right; reflexivity].
  rewrite (A _ U2), (staff_here _ _ _ L). f_equal. unfold hairpin_place. rewrite U1.
  destruct p; cbn; destruct (dynamPosDefined ss), (hasLyrics ss); reflexivity.
Qed.
Print Assumptions C141_hairpins_partial.

(** A dynamic or hairpin of the top staff that is centred or has no place is read
    at that staff: centred when the staff has its dynamics centred, else above
    when the staff has lyrics, else without a place. *)
Definition default_place (ss : staff_state) : option place :=
  if dynamPosDefined ss then Some Centered else if hasLyrics ss then Some Above else None.
Theorem C141_top_staff_partial : forall ss n d p top count,
  unforced ss -> char_in ":" (d_value d) = false -> d_place d = p -> In p [None; Some Centered] -> top < count ->
  round_place ss n d 0 top count [] = (default_place ss, Z.of_nat top, d_justify d)
  /\ round_wedge_place ss n p 0 top count = (default_place ss, Z.of_nat top).
Proof.
  intros ss n d p top count [U1 U2] H P I L.
  assert (Z : place_param p 0 = []) by (destruct I as [<-|[<-|[]]]; reflexivity).
  assert (S0 : new_staff top count 0 = Z.of_nat top) by (unfold new_staff; lia). split.
  - unfold round_place. pose proof (justify_read n d 0 H) as J.
    assert (Params : getDynamicParameters d 0 = justify_param (d_justify d) ++ text_list (d_value d)).
    { transitivity (place_param (d_place d) 0 ++ justify_param (d_justify d) ++ text_list (d_value d)); [reflexivity|]. rewrite P, Z. reflexivity. }
    rewrite Params in *. pose proof (text_lacks_colon _ H) as T.
    destruct (asked_none (S_ "DY") n (justify_param (d_justify d) ++ text_list (d_value d)) (dynamStaffAdj ss) eq_refl) as [E _].
    + rewrite map_app. apply Forall_app. split; [apply justify_names|apply text_names'].
    + rewrite forallb_app, justify_lacks. unfold text_list. destruct (text_param (d_value d)); [|reflexivity]. cbn. rewrite T. reflexivity.
    + rewrite E, J, U2, S0. f_equal. f_equal. unfold dynamic_place, default_place. rewrite U1. cbn. destruct (dynamPosDefined ss), (hasLyrics ss); reflexivity.
  - unfold round_wedge_place. rewrite Z.
    destruct (asked_none (S_ "HP") n [] (dynamStaffAdj ss) eq_refl (Forall_nil _) eq_refl) as [_ E]. rewrite E, U2, S0. f_equal.
    unfold hairpin_place, default_place. rewrite U1. cbn. destruct (dynamPosDefined ss), (hasLyrics ss); reflexivity.
Qed.
Print Assumptions C141_top_staff_partial.

Example C141_nonvacuous :
  let ss := mkStaff 0 true 0 true in
  let d := mkDynamic (S_ "[ mf ]") (Some Below) (Some JCenter) in
  unforced ss /\ char_in ":" (d_value d) = false
  /\ getDynamicParameters d 2 = [S_ "b=3"; S_ "cj"; S_ "ed=brack"]
  /\ round_place ss (Some 2) d 2 1 5 [] = (Some Below, 3%Z, Some JCenter)
  /\ round_wedge_place ss None (Some Centered) 2 1 5 = (Some Centered, 3%Z)
  /\ round_place ss None (mkDynamic (S_ "p") (Some Centered) None) 0 1 5 [] = (Some Centered, 1%Z, None).
Proof. cbv zeta. split; [split; reflexivity|]. repeat (split; [vm_compute; reflexivity|]). vm_compute. reflexivity. Qed.

(** A dynamic centred under a lower staff of its part, and a dynamic or hairpin of
    a lower staff without a place, are read at the top staff; without a place, one
    is read as above the staff if it has lyrics; words after a colon are taken for
    a justification. *)
Theorem C141_places_refuted : let ss := mkStaff 0 false 0 false in
  (exists d k, d = mkDynamic (S_ "p") (Some Centered) None /\ k = 1 /\ round_place ss None d k 0 2 [] = (None, 0%Z, None)) /\
  (exists d k, d = mkDynamic (S_ "p") None None /\ k = 1 /\ round_place ss None d k 0 2 [] = (None, 0%Z, None)) /\
  (exists p k, p = None /\ k = 1 /\ round_wedge_place ss None p k 0 2 = (None, 0%Z)) /\
  (exists d, d = mkDynamic (S_ "p") None None /\ round_place (mkStaff 0 false 0 true) None d 0 0 1 [] = (Some Above, 0%Z, None)) /\
  (exists d, d = mkDynamic (S_ "p dolce:rj") (Some Below) None /\ round_place ss None d 0 0 1 [] = (Some Below, 0%Z, Some JRight)).
Proof.
  cbv zeta. split; [|split; [|split; [|split]]].
  - eexists _, _. split; [reflexivity|]. split; [reflexivity|]. vm_compute. reflexivity.
  - eexists _, _. split; [reflexivity|]. split; [reflexivity|]. vm_compute. reflexivity.
  - eexists _, _. split; [reflexivity|]. split; [reflexivity|]. vm_compute. reflexivity.
  - eexists. split; [reflexivity|]. vm_compute. reflexivity.
  - eexists. split; [reflexivity|]. vm_compute. reflexivity.
Qed.
Print Assumptions C141_places_refuted.
