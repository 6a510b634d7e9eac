(** Proofs about linked layout parameters, track extraction, reference records and
    mensural rhythms. *)
From Verif Require Import PyStr PyStrProofs HashModel LayoutModel BarModel RecipModel TokenModel TokenProofs.
From Coq Require Import Lia QArith Sorted.
Local Close Scope Q_scope.

Lemma inv_addr_none e tr o s : Inv e (with_addr tr o None (new_tok s)).
Proof. constructor; cbn; intros; try discriminate; auto. Qed.

Lemma dots_rep r : forallb (Ascii.eqb "."%char) r = true -> r = repeat "."%char (length r).
Proof.
  induction r as [|c r IH]; [reflexivity|]. cbn [forallb]. intro H. apply andb_true_iff in H as [A B].
  apply Ascii.eqb_eq in A. subst c. cbn. now rewrite <- IH.
Qed.
Lemma rep_dots n : forallb (Ascii.eqb "."%char) (repeat "."%char n) = true.
Proof. induction n; auto. Qed.

(** A bare rhythm: digits, perhaps a percent sign and digits, and dots. *)
Lemma recip_only_spec s : recip_only s = true <->
  exists a b n, a <> [] /\ forallb is_digit a = true
    /\ (b = [] \/ exists b', b = "%"%char :: b' /\ b' <> [] /\ forallb is_digit b' = true)
    /\ s = a ++ b ++ repeat "."%char n.
Proof.
  unfold recip_only. split.
  - pose proof (span_join is_digit s) as J. pose proof (span_fst_all is_digit s) as D.
    destruct (span is_digit s) as [ds r]. cbn [fst snd] in *.
    destruct ds as [|d ds]; [discriminate|]. intro H.
    assert (G : forall r', r = r' -> forallb (Ascii.eqb "."%char) r' = true ->
      exists a b n, a <> [] /\ forallb is_digit a = true
        /\ (b = [] \/ exists b', b = "%"%char :: b' /\ b' <> [] /\ forallb is_digit b' = true)
        /\ s = a ++ b ++ repeat "."%char n).
    { intros r' <- F. exists (d :: ds), [], (length r). split; [discriminate|]. split; [exact D|].
      split; [now left|]. rewrite <- J. cbn [app]. rewrite <- dots_rep by exact F. reflexivity. }
    destruct r as [|c r1]; [now apply (G [])|].
    destruct (Ascii.eqb c "%"%char) eqn:E; [|now apply (G (c :: r1))].
    apply Ascii.eqb_eq in E. subst c.
    pose proof (span_join is_digit r1) as J1. pose proof (span_fst_all is_digit r1) as D1.
    destruct (span is_digit r1) as [ds2 r2]. cbn [fst snd] in *.
    destruct ds2 as [|d2 ds2]; [now apply (G ("%"%char :: r1))|].
    exists (d :: ds), ("%"%char :: d2 :: ds2), (length r2). split; [discriminate|]. split; [exact D|].
    split; [right; exists (d2 :: ds2); repeat split; auto; discriminate|].
    rewrite <- dots_rep by exact H. rewrite <- J, <- J1. reflexivity.
  - intros (a & b & n & A & D & B & ->). destruct B as [->|(b' & -> & B1 & B2)]; cbn [app].
    + rewrite span_app_all; [|exact D|destruct n; reflexivity].
      destruct a; [congruence|]. destruct n; [reflexivity|]. cbn [repeat]. exact (rep_dots (S n)).
    + rewrite span_app_all; [|exact D|reflexivity]. destruct a; [congruence|].
      change (Ascii.eqb "%" "%")%char with true. cbv beta iota.
      rewrite span_app_all; [|exact B2|destruct n; reflexivity].
      destruct b'; [congruence|]. apply rep_dots.
Qed.

(** ** Attaching layout parameters *)

Definition ignored (t : ltok) : bool := contains (S_ ":ignore") (l_text t).

Fixpoint ins (t : ltok) (l : list ltok) : list ltok :=
  match l with
  | [] => [t]
  | x :: l' => if (l_line t <? l_line x)%Z then t :: l else x :: ins t l'
  end.

Fixpoint ins_pos (t : ltok) (l : list ltok) : nat :=
  match l with
  | [] => 0
  | x :: l' => if (l_line t <? l_line x)%Z then 0 else S (ins_pos t l')
  end.

Definition line_le (a b : ltok) : Prop := (l_line a <= l_line b)%Z.
Definition in_order (l : list ltok) : Prop := StronglySorted line_le l.

Lemma ins_in t l x : In x (ins t l) <-> x = t \/ In x l.
Proof.
  induction l as [|y l IH]; cbn; [intuition|].
  destruct (l_line t <? l_line y)%Z; cbn; [intuition|]. rewrite IH. intuition.
Qed.

Lemma ins_sorted t l : in_order l -> in_order (ins t l).
Proof.
  unfold in_order. induction 1 as [|x l S IH F]; cbn.
  - constructor; constructor.
  - destruct (l_line t <? l_line x)%Z eqn:E.
    + apply Z.ltb_lt in E. constructor; [constructor; auto|].
      constructor; [unfold line_le; lia|]. rewrite Forall_forall in *. intros y H.
      specialize (F y H). unfold line_le in *. lia.
    + apply Z.ltb_ge in E. constructor; auto. rewrite Forall_forall in *. intros y H.
      apply ins_in in H as [->|H]; [exact E|auto].
Qed.

Lemma ins_nth t l : nth_error (ins t l) (ins_pos t l) = Some t.
Proof. induction l as [|x l IH]; cbn; auto. destruct (l_line t <? l_line x)%Z; cbn; auto. Qed.

Lemma insert_before_some t l x : In x l -> (l_line t < l_line x)%Z ->
  insert_before t l = Some (ins t l, ins_pos t l).
Proof.
  induction l as [|y l IH]; intros H L; [destruct H|]. cbn.
  destruct (l_line t <? l_line y)%Z eqn:E; auto.
  apply Z.ltb_ge in E. destruct H as [->|H]; [lia|].
  rewrite IH by assumption. reflexivity.
Qed.

Lemma ins_app t l : (forall x, In x l -> (l_line x <= l_line t)%Z) ->
  ins t l = l ++ [t] /\ ins_pos t l = length l.
Proof.
  induction l as [|y l IH]; intro H; cbn; auto.
  assert (E : (l_line t <? l_line y)%Z = false) by (apply Z.ltb_ge; apply H; now left).
  rewrite E. destruct IH as [-> ->]; auto. intros x I. apply H. now right.
Qed.

Lemma last_line_snoc l x : last_line (l ++ [x]) = Some (l_line x).
Proof.
  unfold last_line. rewrite map_app. cbn [map]. rewrite last_last. reflexivity.
Qed.

Lemma sorted_last l x y : in_order (l ++ [x]) -> In y (l ++ [x]) -> (l_line y <= l_line x)%Z.
Proof.
  unfold in_order. induction l as [|a l IH]; cbn; intros S H.
  - destruct H as [->|[]]. lia.
  - inversion S; subst. destruct H as [->|H]; auto.
    rewrite Forall_forall in H3. apply (H3 x). apply in_or_app. right. now left.
Qed.

Lemma index_of_none id l : index_of id l = None <-> ~ In id (map l_id l).
Proof.
  induction l as [|x l IH]; cbn; [tauto|].
  destruct (Nat.eqb (l_id x) id) eqn:E.
  - apply Nat.eqb_eq in E. split; [discriminate|tauto].
  - apply Nat.eqb_neq in E. destruct (index_of id l); cbn; [|tauto].
    split; [discriminate|]. intro N. exfalso. apply N. right.
    assert (~ ~ In id (map l_id l)) by (intro M; apply IH in M; discriminate).
    destruct (in_dec Nat.eq_dec id (map l_id l)); tauto.
Qed.

Lemma index_of_some id l i : index_of id l = Some i ->
  exists x, nth_error l i = Some x /\ l_id x = id.
Proof.
  revert i. induction l as [|x l IH]; cbn; intros i H; [discriminate|].
  destruct (Nat.eqb (l_id x) id) eqn:E.
  - injection H as <-. apply Nat.eqb_eq in E. exists x. auto.
  - destruct (index_of id l) as [j|]; [|discriminate]. cbn in H. injection H as <-.
    destruct (IH j eq_refl) as (y & A & B). exists y. auto.
Qed.

Lemma add_new l t : in_order l -> ignored t = false -> ~ In (l_id t) (map l_id l) ->
  addLinkedParameterSet l t = (ins t l, Z.of_nat (ins_pos t l)).
Proof.
  intros S G N. unfold addLinkedParameterSet. fold (ignored t). rewrite G.
  apply index_of_none in N. rewrite N.
  induction l as [|x l1 _] using rev_ind; [reflexivity|].
  rewrite last_line_snoc. destruct (l_line x <=? l_line t)%Z eqn:E.
  - apply Z.leb_le in E. destruct (ins_app t (l1 ++ [x])) as [-> ->]; auto.
    intros y H. assert (l_line y <= l_line x)%Z by (eapply sorted_last; eauto). lia.
  - apply Z.leb_gt in E. rewrite (insert_before_some t (l1 ++ [x]) x); auto.
    apply in_or_app. right. now left.
Qed.

(** The layout tokens that count: each attached token once, unless ignored. *)
Fixpoint attached (seen : list nat) (ts : list ltok) : list ltok :=
  match ts with
  | [] => []
  | t :: ts' =>
      if ignored t || existsb (Nat.eqb (l_id t)) seen then attached seen ts'
      else t :: attached (l_id t :: seen) ts'
  end.

Lemma existsb_eqb_in n l : existsb (Nat.eqb n) l = true <-> In n l.
Proof.
  rewrite existsb_exists. split.
  - intros (x & H & E). apply Nat.eqb_eq in E. now subst.
  - intro H. exists n. split; auto. apply Nat.eqb_refl.
Qed.

Definition on_line (z : Z) (t : ltok) : bool := (l_line t =? z)%Z.

Lemma filter_ins z t l : in_order l ->
  filter (on_line z) (ins t l) = filter (on_line z) l ++ filter (on_line z) [t].
Proof.
  intro S. induction S as [|x l S IH F]; [reflexivity|]. cbn [ins].
  destruct (l_line t <? l_line x)%Z eqn:E.
  - apply Z.ltb_lt in E.
    change (filter (on_line z) (t :: x :: l)) with
      (if on_line z t then t :: filter (on_line z) (x :: l) else filter (on_line z) (x :: l)).
    change (filter (on_line z) [t]) with (if on_line z t then [t] else []).
    destruct (on_line z t) eqn:T; [|now rewrite app_nil_r].
    unfold on_line in T. apply Z.eqb_eq in T.
    assert (N : filter (on_line z) (x :: l) = []).
    { assert (A : forall y, In y (x :: l) -> on_line z y = false).
      { intros y [<-|H]; unfold on_line; apply Z.eqb_neq; [lia|].
        rewrite Forall_forall in F. specialize (F y H). unfold line_le in F. lia. }
      clear - A. induction (x :: l) as [|y m IH]; [reflexivity|]. cbn.
      rewrite (A y) by now left. apply IH. intros; apply A; now right. }
    rewrite N. reflexivity.
  - cbn [filter]. rewrite IH. cbn [filter]. destruct (on_line z x); reflexivity.
Qed.

Lemma attached_ext seen seen' ts : (forall n, In n seen <-> In n seen') ->
  attached seen ts = attached seen' ts.
Proof.
  revert seen seen'. induction ts as [|t ts IH]; intros seen seen' H; cbn; auto.
  assert (E : existsb (Nat.eqb (l_id t)) seen = existsb (Nat.eqb (l_id t)) seen').
  { destruct (existsb (Nat.eqb (l_id t)) seen) eqn:A, (existsb (Nat.eqb (l_id t)) seen') eqn:B; auto.
    - apply existsb_eqb_in in A. apply H, existsb_eqb_in in A. congruence.
    - apply existsb_eqb_in in B. apply H, existsb_eqb_in in B. congruence. }
  rewrite E. destruct (ignored t || _); auto. f_equal. apply IH. cbn. intro n. rewrite H. tauto.
Qed.

Lemma ins_ids t l n : In n (map l_id (ins t l)) <-> n = l_id t \/ In n (map l_id l).
Proof.
  rewrite !in_map_iff. split.
  - intros (x & <- & H). apply ins_in in H as [->|H]; [auto|right; eauto].
  - intros [->|(x & <- & H)]; [exists t|exists x]; rewrite ins_in; auto.
Qed.

Lemma ins_nodup t l : NoDup (map l_id l) -> ~ In (l_id t) (map l_id l) -> NoDup (map l_id (ins t l)).
Proof.
  induction l as [|x l IH]; cbn; intros D N.
  - constructor; auto.
  - inversion D; subst. destruct (l_line t <? l_line x)%Z; cbn.
    + constructor; auto.
    + constructor; [|apply IH; tauto]. rewrite ins_ids. intuition.
Qed.

(** Everything about attaching more tokens to a list in order. *)
Lemma attach_from ts l : in_order l -> NoDup (map l_id l) ->
  let r := fold_left (fun l t => fst (addLinkedParameterSet l t)) ts l in
  in_order r /\ NoDup (map l_id r)
  /\ (forall z, filter (on_line z) r
              = filter (on_line z) l ++ filter (on_line z) (attached (map l_id l) ts)).
Proof.
  revert l. induction ts as [|t ts IH]; intros l S D; cbn zeta; cbn [fold_left attached].
  - repeat split; auto. intro z. cbn. now rewrite app_nil_r.
  - destruct (ignored t) eqn:G.
    + replace (fst (addLinkedParameterSet l t)) with l
        by (unfold addLinkedParameterSet; fold (ignored t); rewrite G; reflexivity).
      cbn [orb]. apply IH; auto.
    + cbn [orb]. destruct (existsb (Nat.eqb (l_id t)) (map l_id l)) eqn:E.
      * replace (fst (addLinkedParameterSet l t)) with l; [apply IH; auto|].
        unfold addLinkedParameterSet. fold (ignored t). rewrite G.
        destruct (index_of (l_id t) l) eqn:X; [reflexivity|].
        apply index_of_none in X. apply existsb_eqb_in in E. contradiction.
      * assert (N : ~ In (l_id t) (map l_id l)) by (intro H; apply existsb_eqb_in in H; congruence).
        rewrite (add_new l t S G N). cbn [fst].
        destruct (IH (ins t l) (ins_sorted t l S) (ins_nodup t l D N)) as (A & B & C).
        repeat split; auto. intro z. rewrite C, filter_ins by assumption.
        rewrite <- app_assoc. f_equal.
        rewrite (attached_ext (map l_id (ins t l)) (l_id t :: map l_id l)).
        -- cbn [filter]. destruct (on_line z t); reflexivity.
        -- intro n. rewrite ins_ids. cbn. intuition.
Qed.

Lemma attached_in seen ts x : (forall a b, In a ts -> In b ts -> l_id a = l_id b -> a = b) ->
  (In x (attached seen ts) <-> In x ts /\ ignored x = false /\ ~ In (l_id x) seen).
Proof.
  revert seen. induction ts as [|t ts IH]; intros seen U; cbn; [tauto|].
  assert (U' : forall a b, In a ts -> In b ts -> l_id a = l_id b -> a = b)
    by (intros a b A B; apply U; now right).
  destruct (ignored t || existsb (Nat.eqb (l_id t)) seen) eqn:E.
  - rewrite (IH seen U'). apply orb_true_iff in E. split; [tauto|].
    intros ([<-|H] & G & N); [|tauto]. destruct E as [E|E]; [congruence|].
    apply existsb_eqb_in in E. contradiction.
  - apply orb_false_iff in E as [E1 E2].
    assert (N : ~ In (l_id t) seen) by (intro H; apply existsb_eqb_in in H; congruence).
    cbn. rewrite (IH (l_id t :: seen) U'). split.
    + intros [<-|(A & B & C)]; [tauto|]. cbn in C. tauto.
    + intros ([<-|H] & G & M); [now left|].
      destruct (Nat.eq_dec (l_id t) (l_id x)) as [Q|Q].
      * left. apply U; auto; [now left|now right].
      * right. cbn. tauto.
Qed.

Lemma attached_filter ts (f : ltok -> bool) :
  (forall a b, In a ts -> In b ts -> l_id a = l_id b -> a = b) -> NoDup ts ->
  filter f (attached [] ts) = filter (fun t => f t && negb (ignored t)) ts.
Proof.
  intros U D. assert (G : forall ts seen, (forall a b, In a ts -> In b ts -> l_id a = l_id b -> a = b) ->
    NoDup ts -> (forall t, In t ts -> ~ In (l_id t) seen) ->
    filter f (attached seen ts) = filter (fun t => f t && negb (ignored t)) ts).
  { clear. induction ts as [|t ts IH]; intros seen U D N; [reflexivity|]. cbn [attached].
    inversion D; subst.
    assert (U' : forall a b, In a ts -> In b ts -> l_id a = l_id b -> a = b)
      by (intros a b A B; apply U; now right).
    assert (E : existsb (Nat.eqb (l_id t)) seen = false).
    { destruct (existsb (Nat.eqb (l_id t)) seen) eqn:E; [|reflexivity].
      apply existsb_eqb_in in E. exfalso. apply (N t); [now left|exact E]. }
    rewrite E, orb_false_r. cbn [filter]. destruct (ignored t); cbn [negb].
    - rewrite andb_false_r. apply IH; auto. intros; apply N; now right.
    - rewrite andb_true_r. cbn [filter]. rewrite IH; auto.
      intros x X [Q|Q]; [|apply (N x); [now right|exact Q]].
      apply H1. rewrite (U t x); auto; [now left|now right]. }
  apply G; auto.
Qed.

Lemma in_filter_line (x : ltok) l : In x l <-> In x (filter (on_line (l_line x)) l).
Proof. rewrite filter_In. unfold on_line. rewrite Z.eqb_refl. tauto. Qed.

(** The index returned. *)
Lemma add_index l t : in_order l -> ignored t = false ->
  exists x, nth_error (fst (addLinkedParameterSet l t)) (Z.to_nat (snd (addLinkedParameterSet l t))) = Some x
            /\ l_id x = l_id t /\ (0 <= snd (addLinkedParameterSet l t))%Z.
Proof.
  intros S G. destruct (index_of (l_id t) l) as [i|] eqn:E.
  - unfold addLinkedParameterSet. fold (ignored t). rewrite G, E. cbn [fst snd].
    rewrite Nat2Z.id. destruct (index_of_some _ _ _ E) as (x & A & B). exists x. repeat split; auto. lia.
  - rewrite add_new by (auto; now apply index_of_none). cbn [fst snd]. rewrite Nat2Z.id.
    exists t. repeat split; [apply ins_nth|lia].
Qed.

(** ** Looking a layout parameter up *)

Definition of_category (category : str) (h : paramset) : bool :=
  str_eqb (ps_ns1 h) (S_ "LO") && str_eqb (ps_ns2 h) category.

(** The value of the last parameter of that name; empty if there is none. *)
Definition last_value (key : str) (ps : list (str * str)) : str :=
  last (map snd (filter (fun p => str_eqb (fst p) key) ps)) [].
Definition note_number (h : paramset) : str := last_value (S_ "n") (ps_params h).

(** A set applies to a note of the chord if it names no note or names that one. *)
Definition applies (idx : Z) (h : paramset) : bool :=
  match note_number h with
  | [] => true
  | n => (Z.of_N (parse_N n) =? idx + 1)%Z
  end.

Lemma last_cons_default {A} (l : list A) a d : last (a :: l) d = last l a.
Proof. revert a. induction l as [|b l IH]; intro a; [reflexivity|]. cbn in *. destruct l; auto. Qed.

Lemma scan_params_pos ps key out np :
  scan_params ps key false out np
  = (last (map snd (filter (fun p => str_eqb (fst p) key) ps)) out,
     last (map snd (filter (fun p => str_eqb (fst p) (S_ "n")) ps)) np, false).
Proof.
  revert out np. induction ps as [|[k v] ps IH]; intros out np; [reflexivity|].
  cbn [scan_params filter fst]. rewrite andb_false_r, IH.
  destruct (str_eqb k key), (str_eqb k (S_ "n")); cbn [map snd]; rewrite ?last_cons_default; reflexivity.
Qed.

Lemma scan_params_neg_found key ps : forall p l out np,
  filter (fun p => str_eqb (fst p) key) ps = p :: l ->
  exists n, scan_params ps key true out np = (snd p, n, true).
Proof.
  induction ps as [|[k v] ps IH]; intros p l out np F; [discriminate|].
  cbn [scan_params filter fst] in *. destruct (str_eqb k key) eqn:E; cbn [andb].
  - injection F as <- _. eauto.
  - eapply IH, F.
Qed.

Lemma scan_params_neg_none key ps : forall out np,
  filter (fun p => str_eqb (fst p) key) ps = [] ->
  scan_params ps key true out np
  = (out, last (map snd (filter (fun p => str_eqb (fst p) (S_ "n")) ps)) np, false).
Proof.
  induction ps as [|[k v] ps IH]; intros out np F; [reflexivity|].
  cbn [scan_params filter fst] in *. destruct (str_eqb k key) eqn:E; cbn [andb]; [discriminate|].
  rewrite IH by exact F.
  destruct (str_eqb k (S_ "n")); cbn [map snd]; rewrite ?last_cons_default; reflexivity.
Qed.

(** Without a note index: the first parameter of that name in the category. *)
Lemma scan_sets_neg category key idx : (idx < 0)%Z -> forall sets out np,
  scan_sets sets category key idx out np
  = Some (match filter (fun p => str_eqb (fst p) key)
                  (flat_map ps_params (filter (of_category category) sets)) with
          | p :: _ => snd p
          | [] => match filter (of_category category) sets with [] => out | _ => [] end
          end).
Proof.
  intro N. assert (NB : (idx <? 0)%Z = true) by now apply Z.ltb_lt.
  induction sets as [|h sets IH]; intros out np; [reflexivity|].
  cbn [scan_sets].
  change (filter (of_category category) (h :: sets)) with
    (if of_category category h then h :: filter (of_category category) sets
     else filter (of_category category) sets).
  rewrite <- negb_andb.
  change (str_eqb (ps_ns1 h) (S_ "LO") && str_eqb (ps_ns2 h) category) with (of_category category h).
  destruct (of_category category h) eqn:E; cbn [negb]; [|apply IH].
  rewrite NB. cbn [flat_map]. rewrite filter_app.
  destruct (filter (fun p => str_eqb (fst p) key) (ps_params h)) as [|p l] eqn:F.
  - rewrite scan_params_neg_none by exact F. cbn [app]. rewrite orb_true_r, IH.
    destruct (filter _ (flat_map _ _)); [|reflexivity].
    destruct (filter (of_category category) sets); reflexivity.
  - destruct (scan_params_neg_found _ _ _ _ [] np F) as (n & ->). reflexivity.
Qed.

(** The value a note of the chord should get: from the first set of the category
    which applies to it and gives the parameter a value. *)
Definition wanted_value (sets : list paramset) (category key : str) (idx : Z) : str :=
  match filter (fun h => applies idx h && negb (str_eqb (last_value key (ps_params h)) []))
          (filter (of_category category) sets) with
  | h :: _ => last_value key (ps_params h)
  | [] => []
  end.

Definition numbered (h : paramset) : bool := negb (str_eqb (note_number h) []).

Fixpoint numbered_last (l : list paramset) : bool :=
  match l with
  | [] => true
  | h :: l' => if numbered h then forallb numbered l' else numbered_last l'
  end.

(** The sets of the category that name that very note. *)
Definition naming (category : str) (idx : Z) (sets : list paramset) : list paramset :=
  filter (fun h => numbered h && applies idx h) (filter (of_category category) sets).

Lemma str_eqb_nil s : str_eqb s [] = match s with [] => true | _ => false end.
Proof. destruct s; reflexivity. Qed.

Lemma last_nonempty {A} (l : list A) d d' : l <> [] -> last l d = last l d'.
Proof.
  induction l as [|a [|b l] IH]; intro H; [congruence|reflexivity|].
  change (last (b :: l) d = last (b :: l) d'). apply IH. discriminate.
Qed.

Lemma last_or (l : list str) np : last l [] <> [] -> last l np = last l [].
Proof. intro H. apply last_nonempty. intros ->. now apply H. Qed.

Lemma scan_sets_pos category key idx : (0 <= idx)%Z -> forall sets out np,
  (forall h, In h sets -> of_category category h = true -> numbered h = true ->
             digits_only (note_number h) = true) ->
  (np = [] -> numbered_last (filter (of_category category) sets) = true) ->
  (np <> [] -> forallb numbered (filter (of_category category) sets) = true) ->
  length (naming category idx sets) <= 1 ->
  out = [] ->
  scan_sets sets category key idx out np = Some (wanted_value sets category key idx).
Proof.
  intro P. assert (NB : (idx <? 0)%Z = false) by (apply Z.ltb_ge; exact P).
  induction sets as [|h sets IH]; intros out np D L1 L2 L3 ->; [reflexivity|].
  cbn [scan_sets]. unfold wanted_value, naming in *.
  change (filter (of_category category) (h :: sets)) with
    (if of_category category h then h :: filter (of_category category) sets
     else filter (of_category category) sets) in *.
  rewrite <- negb_andb.
  change (str_eqb (ps_ns1 h) (S_ "LO") && str_eqb (ps_ns2 h) category) with (of_category category h).
  assert (D' : forall h, In h sets -> of_category category h = true -> numbered h = true ->
             digits_only (note_number h) = true) by (intros; apply D; [now right|assumption|assumption]).
  destruct (of_category category h) eqn:E; cbn [negb]; [|apply IH; auto].
  rewrite NB, scan_params_pos, orb_false_r.
  fold (last_value key (ps_params h)).
  set (cats := filter (of_category category) sets) in *.
  cbn [filter] in *. cbn [numbered_last forallb] in *.
  destruct (numbered h) eqn:N.
  - assert (NN : note_number h <> []).
    { unfold numbered in N. rewrite str_eqb_nil in N. destruct (note_number h); [discriminate|congruence]. }
    unfold note_number, last_value in NN. rewrite (last_or _ np NN).
    change (last (map snd (filter (fun p => str_eqb (fst p) (S_ "n")) (ps_params h))) [])
      with (note_number h).
    assert (DO : digits_only (note_number h) = true) by (apply D; [now left|assumption|assumption]).
    assert (AP : applies idx h = (Z.of_N (parse_N (note_number h)) =? idx + 1)%Z).
    { unfold applies. fold (note_number h). destruct (note_number h); [discriminate DO|reflexivity]. }
    assert (ALL : forallb numbered cats = true).
    { destruct np; [apply L1; reflexivity|]. specialize (L2 ltac:(discriminate)).
      now apply andb_true_iff in L2. }
    replace (match note_number h with [] => true | _ => false end) with false
      by (destruct (note_number h); [discriminate DO|reflexivity]).
    rewrite DO, <- AP. destruct (applies idx h) eqn:AH; cbn [andb] in *.
    + rewrite str_eqb_nil. destruct (last_value key (ps_params h)) as [|c v] eqn:LV; cbn [negb]; [|now rewrite LV].
      f_equal. cbn [length] in L3.
      assert (Z0 : filter (fun h => numbered h && applies idx h) cats = []).
      { destruct (filter _ cats); [reflexivity|cbn in L3; lia]. }
      assert (Z1 : filter (fun h => applies idx h && negb (str_eqb (last_value key (ps_params h)) [])) cats = []).
      { clear - Z0 ALL. induction cats as [|x l IHl]; [reflexivity|]. cbn [filter forallb] in *.
        apply andb_true_iff in ALL as [A1 A2]. rewrite A1 in Z0. cbn [andb] in Z0.
        destruct (applies idx x); [discriminate|]. cbn [andb]. auto. }
      rewrite Z1. reflexivity.
    + apply IH; auto.
  - assert (NN : note_number h = []).
    { unfold numbered in N. rewrite str_eqb_nil in N. destruct (note_number h); [reflexivity|discriminate]. }
    assert (NP : np = []).
    { destruct np; [reflexivity|]. specialize (L2 ltac:(discriminate)). discriminate. }
    subst np.
    change (last (map snd (filter (fun p => str_eqb (fst p) (S_ "n")) (ps_params h))) [])
      with (note_number h).
    assert (AP : applies idx h = true) by (unfold applies; fold (note_number h); rewrite NN; reflexivity).
    rewrite NN, AP. rewrite str_eqb_nil. cbn [andb] in *.
    destruct (last_value key (ps_params h)) as [|c v] eqn:LV; cbn [negb]; [|now rewrite LV].
    apply IH; auto.
Qed.

(** ** Track extraction *)

(** A token passes the chosen filters. *)
Definition passes (o : opts) (t : stok) : bool :=
  negb (o_nointerp o && s_interp t) && negb (o_nomanip o && s_manip t)
  && negb (o_nonull o && s_null t) && negb (o_nocomment o && s_comment t)
  && negb (o_norest o && s_rest t) && negb (o_notie o && s_tied t).

Definition of_track (track : option nat) (t : stok) : bool := track_eqb (s_track t) track.

(** What should be extracted from a line. *)
Definition wanted_tokens (o : opts) (track : option nat) (l : sline) : list stok :=
  let mine := filter (of_track track) (line_tokens l) in
  let from_spines :=
    if o_noempty o && forallb s_null mine then []
    else filter (passes o) (if o_primary o then firstn 1 mine else mine) in
  match l with
  | EmptyLine => []
  | GlobalLine t => if o_noglobal o then from_spines else [t]
  | SpinedLine _ => from_spines
  end.

Lemma filters_spec o t (skip keep : list stok) :
  (if o_nointerp o && s_interp t then skip
   else if o_nomanip o && s_manip t then skip
   else if o_nonull o && s_null t then skip
   else if o_nocomment o && s_comment t then skip
   else if o_norest o && s_rest t then skip
   else if o_notie o && s_tied t then skip else keep) = if passes o t then keep else skip.
Proof.
  unfold passes.
  destruct (o_nointerp o && s_interp t); [reflexivity|].
  destruct (o_nomanip o && s_manip t); [reflexivity|].
  destruct (o_nonull o && s_null t); [reflexivity|].
  destruct (o_nocomment o && s_comment t); [reflexivity|].
  destruct (o_norest o && s_rest t); [reflexivity|].
  destruct (o_notie o && s_tied t); reflexivity.
Qed.

Lemma seq_tokens_found o track ts :
  seq_tokens o track ts true
  = if o_primary o then [] else filter (passes o) (filter (of_track track) ts).
Proof.
  induction ts as [|t ts IH]; [now destruct (o_primary o)|]. cbn [seq_tokens filter].
  change (track_eqb (s_track t) track) with (of_track track t). rewrite filters_spec, IH.
  destruct (of_track track t) eqn:T; cbn [negb]; [|reflexivity].
  destruct (o_primary o) eqn:P; reflexivity.
Qed.

Lemma seq_tokens_spec o track ts :
  seq_tokens o track ts false
  = filter (passes o) (if o_primary o then firstn 1 (filter (of_track track) ts)
                       else filter (of_track track) ts).
Proof.
  induction ts as [|t ts IH]; [now destruct (o_primary o)|]. cbn [seq_tokens filter].
  change (track_eqb (s_track t) track) with (of_track track t).
  rewrite filters_spec, seq_tokens_found, IH, andb_false_r.
  destruct (of_track track t) eqn:T; cbn [negb]; [|reflexivity].
  destruct (o_primary o) eqn:P; reflexivity.
Qed.

Lemma all_null_spec track ts : all_null track ts = forallb s_null (filter (of_track track) ts).
Proof.
  unfold all_null. induction ts as [|t ts IH]; [reflexivity|]. cbn [forallb filter].
  unfold of_track at 1. destruct (track_eqb (s_track t) track); cbn [negb orb forallb]; now rewrite IH.
Qed.

Definition row (l : list stok) : list (list stok) := match l with [] => [] | _ => [l] end.

Lemma seq_line_spec o track l : seq_line o track l = row (wanted_tokens o track l).
Proof.
  destruct l as [|t|ts]; cbn [seq_line wanted_tokens line_tokens]; [reflexivity| |].
  - destruct (o_noglobal o); [|reflexivity].
    unfold seq_spined. rewrite all_null_spec, seq_tokens_spec.
    destruct (o_noempty o && _); [reflexivity|].
    destruct (filter (passes o) _); reflexivity.
  - unfold seq_spined. rewrite all_null_spec, seq_tokens_spec.
    destruct (o_noempty o && _); [reflexivity|].
    destruct (filter (passes o) _); reflexivity.
Qed.

Definition nonempty (l : list stok) : bool := match l with [] => false | _ => true end.

Lemma getTrackSequence_spec o track lines :
  getTrackSequence o track lines = filter nonempty (map (wanted_tokens o track) lines).
Proof.
  unfold getTrackSequence. induction lines as [|l lines IH]; [reflexivity|].
  cbn [flat_map map filter]. rewrite seq_line_spec, IH.
  destruct (wanted_tokens o track l); reflexivity.
Qed.

Lemma heads_spec rows : forallb nonempty rows = true ->
  heads rows = Some (flat_map (firstn 1) rows).
Proof.
  induction rows as [|r rows IH]; [reflexivity|]. cbn [forallb heads flat_map].
  intro H. apply andb_true_iff in H as [A B]. destruct r; [discriminate|].
  rewrite IH by assumption. reflexivity.
Qed.

(** ** Reference records *)

Lemma split1_found c k v : char_in c k = false -> split1 c (k ++ c :: v) = (k, Some v).
Proof.
  induction k as [|a k IH]; cbn; intro H.
  - now rewrite Ascii.eqb_refl.
  - apply orb_false_iff in H as [A B]. rewrite Ascii.eqb_sym in A. rewrite A, IH by assumption. reflexivity.
Qed.

Lemma lstrip_blanks a s : forallb is_space a = true -> lstrip (a ++ s) = lstrip s.
Proof.
  induction a as [|c a IH]; intro H; [reflexivity|]. cbn in *.
  apply andb_true_iff in H as [H1 H2]. rewrite H1. auto.
Qed.

(** Blanks around a text are removed. *)
Lemma strip_padded a s b : forallb is_space a = true -> forallb is_space b = true ->
  strip s = s -> strip (a ++ s ++ b) = s.
Proof.
  intros A B T. unfold strip. rewrite lstrip_blanks by exact A.
  destruct s as [|c s].
  - cbn [app]. replace (lstrip b) with (@nil ascii); [reflexivity|].
    symmetry. rewrite <- (app_nil_r b). rewrite lstrip_blanks by exact B. reflexivity.
  - assert (L : lstrip ((c :: s) ++ b) = (c :: s) ++ b).
    { cbn. destruct (is_space c) eqn:E; [|reflexivity]. exfalso.
      assert (length (strip (c :: s)) <= length s).
      { unfold strip. cbn [lstrip]. rewrite E.
        assert (LL : forall x, length (lstrip x) <= length x).
        { induction x as [|d x IH]; cbn; [lia|]. destruct (is_space d); cbn; lia. }
        rewrite rev_length. eapply Nat.le_trans; [apply LL|]. rewrite rev_length. apply LL. }
      rewrite T in H. cbn in H. lia. }
    rewrite L, rev_app_distr, lstrip_blanks.
    + unfold strip in T.
      assert (L' : lstrip (c :: s) = c :: s).
      { cbn in *. destruct (is_space c); [|reflexivity]. exfalso.
        rewrite <- (app_nil_r s) in L at 1. cbn in L.
        assert (LL : forall x, length (lstrip x) <= length x).
        { induction x as [|d x IH]; cbn; [lia|]. destruct (is_space d); cbn; lia. }
        pose proof (LL (s ++ b)) as X. rewrite app_nil_r in L. rewrite L in X. cbn in X. lia. }
      rewrite L' in T. exact T.
    + rewrite forallb_forall in *. intros x H. apply B. now apply in_rev.
Qed.

Lemma starts_bangs n s : starts_with (repeat "!"%char n) (repeat "!"%char n ++ s) = true.
Proof. induction n; cbn; auto. Qed.

Lemma key_and_value a k b c v d :
  forallb is_space a = true -> forallb is_space b = true ->
  forallb is_space c = true -> forallb is_space d = true ->
  strip k = k -> strip v = v -> char_in ":"%char (a ++ k ++ b) = false ->
  getKeyAndValue ((a ++ k ++ b) ++ ":"%char :: (c ++ v ++ d)) = (k, v).
Proof.
  intros A B C D K V N. unfold getKeyAndValue. rewrite split1_found by exact N.
  rewrite !strip_padded by assumption. reflexivity.
Qed.

(** ** Mensural rhythms *)

(** The rhythm letters, in quarter notes. *)
Definition mens_table : list (ascii * Q) :=
  [("X"%char, 32%Q); ("L"%char, 16%Q); ("S"%char, 8%Q); ("s"%char, 4%Q);
   ("M"%char, 2%Q); ("m"%char, 1%Q); ("U"%char, (1 # 2)%Q); ("u"%char, (1 # 4)%Q)].
Definition is_rhythm (c : ascii) : bool := existsb (fun x => Ascii.eqb c (fst x)) mens_table.
Definition is_mark (c : ascii) : bool := Ascii.eqb c "p"%char || Ascii.eqb c "i"%char.

(** The last mark of perfection or imperfection; none is imperfect. *)
Definition marked_perfect (s : str) : bool := Ascii.eqb (last (filter is_mark s) "i"%char) "p"%char.

Lemma last_char (l : str) c d : last (c :: l) d = last l c.
Proof. revert c. induction l as [|b l IH]; intro a; [reflexivity|]. cbn in *. destruct l; auto. Qed.

Lemma mens_scan_spec pre post q c : forall perfect,
  forallb (fun x => negb (is_rhythm x) && negb (Ascii.eqb x " "%char)) pre = true ->
  mens_letter c = Some q ->
  mens_scan (pre ++ c :: post) perfect
  = (q, Ascii.eqb (last (filter is_mark pre) (if perfect then "p" else "i")%char) "p"%char).
Proof.
  induction pre as [|x pre IH]; intros perfect P M.
  - cbn [app mens_scan filter last]. rewrite M.
    destruct (Ascii.eqb c "p"%char) eqn:E; [apply Ascii.eqb_eq in E; subst; discriminate|].
    destruct (Ascii.eqb c "i"%char) eqn:E2; [apply Ascii.eqb_eq in E2; subst; discriminate|].
    destruct perfect; reflexivity.
  - cbn [forallb] in P. apply andb_true_iff in P as [P1 P2]. apply andb_true_iff in P1 as [R B].
    apply negb_true_iff in R, B. cbn [app mens_scan].
    assert (ML : mens_letter x = None).
    { unfold is_rhythm, mens_table in R. cbn [existsb fst] in R. unfold mens_letter.
      repeat (apply orb_false_iff in R as [? R]).
      repeat match goal with H : Ascii.eqb x _ = false |- _ => rewrite H; clear H end. reflexivity. }
    rewrite ML, B, IH by assumption. f_equal. cbn [filter]. unfold is_mark at 2.
    destruct (Ascii.eqb x "p"%char) eqn:E.
    + apply Ascii.eqb_eq in E; subst. cbn [orb]. rewrite last_char. reflexivity.
    + destruct (Ascii.eqb x "i"%char) eqn:E2; cbn [orb]; [|reflexivity].
      apply Ascii.eqb_eq in E2; subst. rewrite last_char. reflexivity.
Qed.

Lemma mens_plain_spec pre post q c :
  forallb (fun x => negb (is_rhythm x) && negb (Ascii.eqb x " "%char)) pre = true ->
  mens_letter c = Some q -> mens_scan_plain (pre ++ c :: post) = q.
Proof.
  induction pre as [|x pre IH]; intros P M.
  - cbn [app mens_scan_plain]. rewrite M. reflexivity.
  - cbn [forallb] in P. apply andb_true_iff in P as [P1 P2]. apply andb_true_iff in P1 as [R B].
    apply negb_true_iff in R, B. cbn [app mens_scan_plain].
    assert (ML : mens_letter x = None).
    { unfold is_rhythm, mens_table in R. cbn [existsb fst] in R. unfold mens_letter.
      repeat (apply orb_false_iff in R as [? R]).
      repeat match goal with H : Ascii.eqb x _ = false |- _ => rewrite H; clear H end. reflexivity. }
    rewrite ML, B. auto.
Qed.

Lemma mens_letter_table c q : In (c, q) mens_table ->
  exists w, mens_letter c = Some w /\ (w * 4 == q)%Q.
Proof.
  unfold mens_table. cbn [In]. intro H.
  repeat (destruct H as [H|H]; [injection H as <- <-; eexists; split; [reflexivity|reflexivity]|]).
  destruct H.
Qed.

Lemma mens_none s : forallb (fun x => negb (is_rhythm x)) s = true ->
  (mensToDuration s == 0)%Q /\ (mensToDurationNoDots s == 0)%Q.
Proof.
  intro H. assert (A : forall p, fst (mens_scan s p) = 0%Q /\ mens_scan_plain s = 0%Q).
  { induction s as [|x s IH]; intro p; [auto|]. cbn [forallb] in H. apply andb_true_iff in H as [R H].
    apply negb_true_iff in R. cbn [mens_scan mens_scan_plain].
    assert (ML : mens_letter x = None).
    { unfold is_rhythm, mens_table in R. cbn [existsb fst] in R. unfold mens_letter.
      repeat (apply orb_false_iff in R as [? R]).
      repeat match goal with H : Ascii.eqb x _ = false |- _ => rewrite H; clear H end. reflexivity. }
    rewrite ML. destruct (Ascii.eqb x " "%char); [auto|]. apply IH; auto. }
  destruct (A false) as [A1 A2]. unfold mensToDuration, mensToDurationNoDots. rewrite A2.
  destruct (mens_scan s false) as [o p]. cbn in A1. subst o. destruct p; split; reflexivity.
Qed.
