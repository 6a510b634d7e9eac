(** C169: numbers of groups and parts in the system decoration become their staves. *)
From Coq Require Import List Arith NArith Bool Ascii String Lia Sorting.Sorted.
From Verif Require Import PyStr PyStrProofs DecoModel DecoProofs DecoProofs2 PropsDeco DecoGroupModel PropsDecoGroup DecoExpandModel.
Import ListNotations.
Local Open Scope list_scope.

(** No letter of groups or parts. *)
Definition other (c : ascii) : bool := negb (Ascii.eqb c "p") && negb (Ascii.eqb c "g").
Definition free (s : str) : Prop := forallb other s = true.
Definition ref_letter (c : ascii) : Prop := c = "p"%char \/ c = "g"%char.

Lemma free_app a b : free a -> free b -> free (a ++ b).
Proof. unfold free. rewrite forallb_app. intros -> ->. reflexivity. Qed.
Lemma digit_other c : is_digit c = true -> other c = true.
Proof.
  intro D. unfold other. destruct (Ascii.eqb_spec c "p") as [->|_]; [discriminate D|].
  destruct (Ascii.eqb_spec c "g") as [->|_]; [discriminate D|reflexivity].
Qed.
Lemma free_staff n : free (staff_text n).
Proof.
  unfold free, staff_text. cbn [forallb]. change (other "s") with true. cbn [andb]. apply forallb_forall.
  intros c I. apply digit_other. exact (digits_in _ _ I).
Qed.
Lemma free_comma (b : bool) : free (if b then S_ "," else []).
Proof. destruct b; reflexivity. Qed.
Lemma free_staves l : forall i, free (staves_text i l).
Proof.
  induction l as [|n l IH]; intro i; [reflexivity|]. cbn [staves_text].
  apply free_app; [apply free_comma|]. apply free_app; [apply free_staff|apply IH].
Qed.
Lemma free_list l : free (staves_list l).
Proof.
  induction l as [|n [|m l] IH]; [reflexivity|apply free_staff|]. cbn [staves_list].
  apply free_app; [apply free_staff|]. exact IH.
Qed.
Lemma free_before l : forall i low todo, free (fst (staves_before i low todo l)).
Proof.
  induction l as [|n l IH]; intros i low todo; [reflexivity|]. cbn [staves_before]. destruct (low <=? n)%N; [reflexivity|].
  specialize (IH (S i) low todo). destruct (staves_before (S i) low todo l) as [o d]. cbn [fst] in IH.
  destruct (memN n todo); cbn [fst]; [|exact IH]. apply free_app; [apply free_comma|]. apply free_app; [apply free_staff|exact IH].
Qed.
Lemma free_pre s b : free (pre_string s b).
Proof. destruct s, b; reflexivity. Qed.
Lemma free_post s b : free (post_string s b).
Proof. destruct s, b; reflexivity. Qed.
Lemma free_subgroups : forall f sorted todo, free (fst (fst (subgroups f sorted todo))).
Proof.
  induction f as [|s bar st kids IHk rest IHr]; intros sorted todo; [reflexivity|]. cbn [subgroups].
  pose proof (free_before sorted 0 (hd 0%N st) todo) as B. destruct (staves_before 0 (hd 0%N st) todo sorted) as [o1 d1].
  specialize (IHk st st). destruct (subgroups kids st st) as [[o2 l2] d2].
  match goal with |- context [subgroups rest sorted ?t] => specialize (IHr sorted t); destruct (subgroups rest sorted t) as [[o3 l3] d3] end.
  cbn [fst] in *. apply free_app; [exact B|]. apply free_app; [|exact IHr]. destruct st; [reflexivity|].
  apply free_app; [apply free_pre|]. apply free_app; [exact IHk|]. apply free_app; [apply free_staves|apply free_post].
Qed.
Lemma free_written : forall f, free (write_deco f).
Proof.
  induction f as [|s bar st kids IHk rest IHr]; [reflexivity|]. cbn [write_deco].
  pose proof (free_subgroups kids st st) as K. destruct (subgroups kids st st) as [[o l] d]. cbn [fst] in K.
  destruct st; [exact IHr|]. apply free_app; [|exact IHr].
  apply free_app; [apply free_pre|]. apply free_app; [exact K|]. apply free_app; [apply free_staves|apply free_post].
Qed.

(** ** Texts with references *)

(** A text in pieces: a letter with a number, or anything without these letters. *)
Inductive piece := Txt (s : str) | Ref (letter : ascii) (n : N).
Definition text (p : piece) : str := match p with Txt s => s | Ref c n => c :: show_N n end.
Definition texts (l : list piece) : str := flat_map text l.
Definition fine (p : piece) : Prop :=
  match p with Txt s => free s | Ref c n => ref_letter c /\ (n < 10)%N end.
(** One number replaced by its staves. *)
Definition put (c : ascii) (n : N) (staves : list N) (p : piece) : piece :=
  match p with
  | Ref c' n' => if Ascii.eqb c c' && N.eqb n n' then Txt (staves_list staves) else p
  | _ => p
  end.

Lemma one_digit n : (n < 10)%N -> exists d, show_N n = [d] /\ is_digit d = true /\ d = digit_char n.
Proof.
  intro H. assert (C : In n [0; 1; 2; 3; 4; 5; 6; 7; 8; 9]%N) by (cbn [In]; lia).
  cbn [In] in C. repeat (destruct C as [<-|C]; [eexists; repeat split; reflexivity|]). contradiction.
Qed.
Lemma digit_same n m : (n < 10)%N -> (m < 10)%N -> digit_char n = digit_char m -> n = m.
Proof.
  intros H K. assert (C : In n [0; 1; 2; 3; 4; 5; 6; 7; 8; 9]%N) by (cbn [In]; lia).
  assert (D : In m [0; 1; 2; 3; 4; 5; 6; 7; 8; 9]%N) by (cbn [In]; lia). cbn [In] in C, D.
  repeat (destruct C as [<-|C]; [repeat (destruct D as [<-|D]; [try reflexivity; intro E; discriminate E|]); contradiction|]).
  contradiction.
Qed.
Lemma skip_free c t new : ref_letter c -> forall s f r, free s ->
  replace_fuel (length s + f) (c :: t) new (s ++ r) = s ++ replace_fuel f (c :: t) new r.
Proof.
  intros RL s f r. induction s as [|x s IH]; intro F; [reflexivity|]. cbn [length Nat.add app replace_fuel starts_with].
  unfold free in F. cbn [forallb] in F. apply andb_true_iff in F. destruct F as [X F].
  assert (N : Ascii.eqb c x = false).
  { apply Ascii.eqb_neq. intros <-. destruct RL as [->| ->]; discriminate X. }
  rewrite N. cbn [andb]. f_equal. exact (IH F).
Qed.
Lemma replaced c n staves : ref_letter c -> (n < 10)%N -> forall l f, Forall fine l -> length (texts l) <= f ->
  replace_fuel f (c :: show_N n) (staves_list staves) (texts l) = texts (map (put c n staves) l).
Proof.
  intros RL SN. induction l as [|p l IH]; intros f F LEN.
  - destruct f; reflexivity.
  - inversion F as [|? ? P Q]; subst. cbn [texts flat_map map]. fold (texts l) (texts (map (put c n staves) l)).
    cbn [texts flat_map] in LEN. fold (texts l) in LEN. rewrite app_length in LEN.
    destruct p as [s|c' n']; cbn [text fine put] in *.
    + replace f with (length s + (f - length s)) by lia. rewrite (skip_free c _ _ RL s _ _ P). f_equal. apply IH; [exact Q|lia].
    + destruct P as [RL' SN']. destruct (one_digit n SN) as (d & E & D & V). destruct (one_digit n' SN') as (d' & E' & D' & V').
      rewrite E, E' in *. cbn [length] in LEN. destruct f as [|[|f]]; [lia|lia|].
      assert (TL : length (texts l) <= f) by lia.
      assert (ND : Ascii.eqb c d' = false).
      { apply Ascii.eqb_neq. intros ->. apply digit_other in D'. destruct RL as [->| ->]; discriminate D'. }
      destruct (Ascii.eqb_spec c c') as [<-|NC]; [destruct (N.eqb_spec n n') as [<-|NN]|]; cbn [andb text].
      * assert (d' = d) as -> by congruence.
        change ([c; d] ++ texts l) with (c :: d :: texts l). cbn [replace_fuel starts_with length skipn].
        rewrite !Ascii.eqb_refl. cbn [andb]. f_equal.
        exact (IH (S f) Q ltac:(lia)).
      * rewrite E'. change ([c; d'] ++ texts l) with (c :: d' :: texts l).
        assert (NE : Ascii.eqb d d' = false).
        { apply Ascii.eqb_neq. intro X. apply NN. apply digit_same; [exact SN|exact SN'|congruence]. }
        cbn [replace_fuel starts_with]. rewrite Ascii.eqb_refl, NE, ND. cbn [andb]. rewrite (IH f Q TL). reflexivity.
      * rewrite E'. change ([c'; d'] ++ texts l) with (c' :: d' :: texts l).
        cbn [replace_fuel starts_with]. apply Ascii.eqb_neq in NC. rewrite NC, ND. cbn [andb]. rewrite (IH f Q TL). reflexivity.
Qed.
Lemma put_fine c n st l : Forall fine l -> Forall fine (map (put c n st) l).
Proof.
  intro F. apply Forall_map. eapply Forall_impl; [|exact F]. intros [s|c' n'] P; [exact P|]. cbn [put].
  destruct (Ascii.eqb c c' && N.eqb n n'); [apply free_list|exact P].
Qed.

(** What all references of a letter become: the staves of the first entry. *)
Fixpoint staves_for (table : list (N * list N)) (n : N) : option (list N) :=
  match table with
  | [] => None
  | (m, st) :: r => if N.eqb m n then Some st else staves_for r n
  end.
Definition put_all (c : ascii) (table : list (N * list N)) (p : piece) : piece :=
  match p with
  | Ref c' n => if Ascii.eqb c c' then match staves_for table n with Some st => Txt (staves_list st) | None => p end else p
  | _ => p
  end.
Lemma expand_cons c m st table d :
  expand_all c ((m, st) :: table) d = expand_all c table (replace (c :: show_N m) (staves_list st) d).
Proof. reflexivity. Qed.
Lemma all_replaced c : ref_letter c -> forall table l, Forall (fun e => (fst e < 10)%N) table -> Forall fine l ->
  expand_all c table (texts l) = texts (map (put_all c table) l) /\ Forall fine (map (put_all c table) l).
Proof.
  intro RL. induction table as [|[m st] table IH]; intros l T F.
  - rewrite (map_ext _ (fun p => p)); [rewrite map_id; split; [reflexivity|exact F]|].
    intros [s|c' n]; [reflexivity|]. cbn [put_all staves_for]. destruct (Ascii.eqb c c'); reflexivity.
  - inversion T as [|? ? T1 T2]; subst. cbn [fst] in T1.
    assert (E : map (put_all c ((m, st) :: table)) l = map (put_all c table) (map (put c m st) l)).
    { rewrite map_map. apply map_ext. intros [s|c' n]; [reflexivity|]. cbn [put_all put staves_for].
      destruct (Ascii.eqb c c') eqn:C; cbn [andb]; [|cbn [put_all]; rewrite C; reflexivity].
      destruct (N.eqb m n); [reflexivity|]. cbn [put_all]. rewrite C. reflexivity. }
    rewrite E, expand_cons. unfold replace.
    rewrite (replaced c m st RL T1 l (S (length (texts l))) F) by lia.
    apply IH; [exact T2|apply put_fine; exact F].
Qed.
Lemma drop_free c : ref_letter c -> forall s, free s -> drop_refs c false s = s.
Proof.
  intro RL. induction s as [|x s IH]; intro F; [reflexivity|]. cbn [drop_refs andb].
  unfold free in F. cbn [forallb] in F. apply andb_true_iff in F. destruct F as [X F].
  assert (N : Ascii.eqb x c = false).
  { apply Ascii.eqb_neq. intros ->. destruct RL as [->| ->]; discriminate X. }
  rewrite N. cbn [andb]. f_equal. exact (IH F).
Qed.
Lemma expand_free c table : ref_letter c -> forall s, free s -> expand_all c table s = s.
Proof.
  intro RL. induction table as [|[m st] table IH]; intros s F; [reflexivity|]. rewrite expand_cons.
  unfold replace. pose proof (skip_free c (show_N m) (staves_list st) RL s 1 [] F) as K. rewrite app_nil_r in K.
  replace (length s + 1) with (S (length s)) in K by lia. rewrite K. cbn [replace_fuel]. rewrite app_nil_r. exact (IH s F).
Qed.

(** Texts that do not begin with a digit. *)
Definition headed (p : piece) : Prop := match p with Txt s => is_digit (hd " "%char s) = false | Ref _ _ => True end.
Definition not_ref (c : ascii) (p : piece) : bool := match p with Txt _ => true | Ref c' _ => negb (Ascii.eqb c c') end.
Lemma Forall_filter {A} (P : A -> Prop) f l : Forall P l -> Forall P (filter f l).
Proof. rewrite !Forall_forall. intros H x I. apply filter_In in I. apply H. exact (proj1 I). Qed.
Lemma put_headed c table l : Forall headed l -> Forall headed (map (put_all c table) l).
Proof.
  intro F. apply Forall_map. eapply Forall_impl; [|exact F]. intros [s|c' n] H; [exact H|]. cbn [put_all].
  destruct (Ascii.eqb c c'); [|exact H]. destruct (staves_for table n) as [[|a [|b st]]|]; reflexivity || exact H.
Qed.
Lemma head_texts l : Forall fine l -> Forall headed l -> is_digit (hd " "%char (texts l)) = false.
Proof.
  induction l as [|p l IH]; intros F H; [reflexivity|]. inversion F as [|? ? F1 F2]; subst. inversion H as [|? ? H1 H2]; subst.
  cbn [texts flat_map]. destruct p as [[|x s]|c n]; cbn [text app hd].
  - exact (IH F2 H2).
  - exact H1.
  - destruct F1 as [[->| ->] _]; reflexivity.
Qed.
Lemma inside_only c b s : is_digit (hd " "%char s) = false -> drop_refs c b s = drop_refs c false s.
Proof. destruct s as [|x s]; [reflexivity|]. cbn [hd drop_refs]. intros ->. rewrite andb_false_r. reflexivity. Qed.
Lemma drop_skip c : ref_letter c -> forall s r, free s -> drop_refs c false (s ++ r) = s ++ drop_refs c false r.
Proof.
  intros RL s r. induction s as [|x s IH]; intro F; [reflexivity|]. cbn [app drop_refs andb].
  unfold free in F. cbn [forallb] in F. apply andb_true_iff in F. destruct F as [X F].
  assert (N : Ascii.eqb x c = false).
  { apply Ascii.eqb_neq. intros ->. destruct RL as [->| ->]; discriminate X. }
  rewrite N. cbn [andb]. f_equal. exact (IH F).
Qed.
Lemma dropped c : ref_letter c -> forall l, Forall fine l -> Forall headed l ->
  drop_refs c false (texts l) = texts (filter (not_ref c) l).
Proof.
  intro RL. induction l as [|p l IH]; intros F H; [reflexivity|].
  inversion F as [|? ? F1 F2]; subst. inversion H as [|? ? H1 H2]; subst. specialize (IH F2 H2).
  pose proof (head_texts l F2 H2) as HT. change (texts (p :: l)) with (text p ++ texts l).
  destruct p as [s|c' n]; cbn [filter not_ref].
  - change (texts (Txt s :: filter (not_ref c) l)) with (s ++ texts (filter (not_ref c) l)). cbn [text].
    rewrite (drop_skip c RL s _ F1), IH. reflexivity.
  - destruct F1 as [RL' SN]. destruct (one_digit n SN) as (d & E & D & _). cbn [text]. rewrite E.
    change ((c' :: [d]) ++ texts l) with (c' :: d :: texts l).
    assert (ND : Ascii.eqb d c = false).
    { apply Ascii.eqb_neq. intros ->. apply digit_other in D. destruct RL as [->| ->]; discriminate D. }
    destruct (Ascii.eqb_spec c c') as [<-|NC]; cbn [negb].
    + rewrite <- IH, <- (inside_only c true _ HT). remember (texts l) as r eqn:R. cbn [drop_refs andb].
      rewrite Ascii.eqb_refl, D. reflexivity.
    + change (texts (Ref c' n :: filter (not_ref c) l)) with ((c' :: show_N n) ++ texts (filter (not_ref c) l)). rewrite E, <- IH.
      assert (NE : Ascii.eqb c' c = false) by (apply Ascii.eqb_neq; congruence).
      remember (texts l) as r eqn:R. cbn [drop_refs andb app]. rewrite NE, ND. reflexivity.
Qed.

(** ** C169 *)

(** Texts without numbers of groups and parts stay as they are. *)
Theorem C169_plain : forall groups parts d, ~ In "p"%char d -> ~ In "g"%char d -> expand_deco groups parts d = d.
Proof.
  intros groups parts d P G.
  assert (F : free d).
  { apply forallb_forall. intros c I. unfold other. destruct (Ascii.eqb_spec c "p") as [->|_]; [contradiction|].
    destruct (Ascii.eqb_spec c "g") as [->|_]; [contradiction|reflexivity]. }
  unfold expand_deco. rewrite (expand_free "g" groups (or_intror eq_refl) d F), (expand_free "p" parts (or_introl eq_refl) d F).
  rewrite (drop_free "p" (or_introl eq_refl) d F). exact (drop_free "g" (or_intror eq_refl) d F).
Qed.
Print Assumptions C169_plain.

(** What the writer wrote has no such numbers, whatever the groups and parts of the file. *)
Theorem C169_written : forall groups parts f, expand_deco groups parts (write_deco f) = write_deco f.
Proof.
  intros groups parts f. pose proof (free_written f) as F. revert F. generalize (write_deco f). intros d F.
  unfold free in F. rewrite forallb_forall in F. apply C169_plain; intro I; apply F in I; discriminate I.
Qed.
Print Assumptions C169_written.

(** So groups come back with any tables of groups and parts. *)
Theorem C169_again (groups parts : list (N * list N)) (staff_list : list N) (ix : N -> nat) (L : layout) (s : symbol) :
  ~ has_sign s -> places staff_list ix -> (forall n, In n staff_list <-> In n (staves_of L)) ->
  StronglySorted N.lt (staves_of L) -> StronglySorted Nat.lt (map ix (staves_of L)) -> plain_groups L -> 2 <= length (staves_of L) ->
  exists t, read_deco (expand_deco groups parts) staff_list (write_deco (FTree s false (staves_of L) (trees_of L) FNil)) = Some t
    /\ make_groups t = Some (top_groups ix L, map ix (staves_of L)).
Proof.
  intros NS PL COV SS SX W LEN. apply C167_again; try assumption. apply C169_written.
Qed.
Print Assumptions C169_again.

(** Names of staves with commas between them. *)
Definition joined (st : list N) : str := tl (flat_map (fun n => ","%char :: "s"%char :: show_N n) st).
Lemma list_joined st : staves_list st = joined st.
Proof.
  unfold joined. induction st as [|n [|m l] IH]; [reflexivity| |].
  - cbn [staves_list flat_map tl]. rewrite app_nil_r. reflexivity.
  - change (staves_list (n :: m :: l)) with (staff_text n ++ ","%char :: staves_list (m :: l)). rewrite IH. reflexivity.
Qed.

(** Full statement: each number of a group or part becomes the staves of just that group or
    part, and vanishes if there are none.  Proved when all numbers have one digit and no text
    after them begins with a digit; missing: numbers from 10 on (see below). *)
Theorem C169_numbers_partial : forall groups parts l,
  Forall (fun e => (fst e < 10)%N) groups -> Forall (fun e => (fst e < 10)%N) parts ->
  Forall (fun p => match p with
                   | Txt s => ~ In "p"%char s /\ ~ In "g"%char s /\ is_digit (hd " "%char s) = false
                   | Ref c n => (c = "g"%char \/ c = "p"%char) /\ (n < 10)%N
                   end) l ->
  expand_deco groups parts (texts l)
  = flat_map (fun p => match p with
                       | Txt s => s
                       | Ref c n => match staves_for (if Ascii.eqb c "g" then groups else parts) n with
                                    | Some st => joined st | None => [] end
                       end) l.
Proof.
  intros groups parts l G P F.
  assert (FL : Forall fine l).
  { eapply Forall_impl; [|exact F]. intros [s|c n]; cbn [fine].
    - intros (A & B & _). apply forallb_forall. intros c I. unfold other. destruct (Ascii.eqb_spec c "p") as [->|_]; [contradiction|].
      destruct (Ascii.eqb_spec c "g") as [->|_]; [contradiction|reflexivity].
    - intros [[->| ->] SN]; (split; [unfold ref_letter; auto|exact SN]). }
  assert (HL : Forall headed l).
  { eapply Forall_impl; [|exact F]. intros [s|c n]; cbn [headed]; [intros (_ & _ & H); exact H|intros _; exact I]. }
  destruct (all_replaced "g" (or_intror eq_refl) groups l G FL) as [E1 F1].
  destruct (all_replaced "p" (or_introl eq_refl) parts _ P F1) as [E2 F2].
  unfold expand_deco. rewrite E1, E2.
  rewrite (dropped "p" (or_introl eq_refl)); [|exact F2|apply put_headed, put_headed; exact HL].
  rewrite (dropped "g" (or_intror eq_refl)).
  - clear E1 E2 F1 F2 FL HL. induction l as [|p l IH]; [reflexivity|]. inversion F as [|? ? X Y]; subst. specialize (IH Y).
    cbn [map flat_map]. rewrite <- IH. clear IH. destruct p as [s|c n]; [reflexivity|]. destruct X as [[->| ->] _].
    + change (Ascii.eqb "g" "g") with true. cbn [put_all]. change (Ascii.eqb "g" "g") with true.
      destruct (staves_for groups n) as [st|]; [rewrite <- list_joined|]; reflexivity.
    + change (Ascii.eqb "p" "g") with false. cbn [put_all]. change (Ascii.eqb "g" "p") with false. cbn [put_all].
      change (Ascii.eqb "p" "p") with true. destruct (staves_for parts n) as [st|]; [rewrite <- list_joined|]; reflexivity.
  - apply Forall_filter. exact F2.
  - apply Forall_filter, put_headed, put_headed. exact HL.
Qed.
Print Assumptions C169_numbers_partial.

(** Part 10 is taken for part 1 and a digit, which then belongs to the number of the last staff
    of part 1; right only by chance when part 1 is just staff 1. *)
Theorem C169_ten_refuted : exists parts, parts = map (fun n => (n, [n])) [1; 2; 3; 4; 5; 6; 7; 8; 9; 10; 11]%N
  /\ expand_deco [] parts (S_ "{(p2,p10)}") = S_ "{(s2,s10)}"
  /\ exists parts', parts' = [(1, [1; 2]); (2, [3]); (10, [4])]%N /\ staves_for parts' 10 = Some [4]%N
  /\ expand_deco [] parts' (S_ "{(p2,p10)}") = S_ "{(s3,s1,s20)}".
Proof. eexists. split; [reflexivity|]. split; [vm_compute; reflexivity|]. eexists. repeat split; vm_compute; reflexivity. Qed.
Print Assumptions C169_ten_refuted.

Example C169_nonvacuous :
  let l := [Txt (S_ "{("); Ref "p" 1; Txt (S_ ")}["); Ref "g" 2; Txt (S_ "s9]")] in
  texts l = S_ "{(p1)}[g2s9]"
  /\ expand_deco [(1, [1]); (2, [3; 12])]%N [(1, [1; 2]); (2, [3])]%N (texts l) = S_ "{(s1,s2)}[s3,s12s9]"
  /\ Forall (fun p => match p with
                      | Txt s => ~ In "p"%char s /\ ~ In "g"%char s /\ is_digit (hd " "%char s) = false
                      | Ref c n => (c = "g"%char \/ c = "p"%char) /\ (n < 10)%N
                      end) l
  /\ expand_deco [] [(1, [1; 2])]%N (S_ "p1p3g1s4") = S_ "s1,s2s4".
Proof.
  split; [vm_compute; reflexivity|]. split; [vm_compute; reflexivity|]. split; [|vm_compute; reflexivity].
  repeat (constructor; [cbn; intuition (discriminate || reflexivity)|]). constructor.
Qed.
