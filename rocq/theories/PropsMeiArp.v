(** C145: arpeggios written to MEI and read. *)
From Verif Require Import PyStr PyStrProofs MeiIdsModel PropsMeiIds ArpModel.
From Coq Require Import Lia.

Definition types : list str := [S_ "normal"; S_ "up"; S_ "down"; S_ "non-arpeggio"].
(** Ids of notes: not empty, without spaces, not beginning with a number sign. *)
Definition id_ok (i : str) : Prop := char_in " " i = false /\ match i with c :: _ => c <> "#"%char | [] => False end.
Definition ids_of (a : marp) : list str := match a with MMark _ i => [i] | MSpanner _ is => is end.
Definition type_ (a : marp) : str := match a with MMark ty _ => ty | MSpanner ty _ => ty end.
Definition arp_ok (a : marp) : Prop := In (type_ a) types /\ Forall id_ok (ids_of a) /\ ids_of a <> [].
Definition is_spanner (a : marp) : bool := match a with MSpanner _ _ => true | MMark _ _ => false end.

Lemma type_back a : In a types -> type_of (fst (arrow_and_order a)) (snd (arrow_and_order a)) = a.
Proof. intro H. cbn in H. destruct H as [<-|[<-|[<-|[<-|[]]]]]; reflexivity. Qed.

Lemma octothorpe_ok i : id_ok i -> removeOctothorpe i = i.
Proof. intros [_ H]. destruct i as [|c i]; [destruct H|]. cbn. destruct (Ascii.eqb_spec c "#"%char); [contradiction|reflexivity]. Qed.

(** The ids that the reader finds are those written, some with number signs. *)
Lemma remove_other x l : ~ In x l -> remove_first x l = l.
Proof. induction l as [|y l IH]; intro H; [reflexivity|]. cbn. destruct (str_eqb x y) eqn:E; [apply str_eqb_eq in E; subst; exfalso; apply H; now left|]. rewrite IH; [reflexivity|]. intro I. apply H. now right. Qed.
Lemma sharp_not i l : Forall id_ok l -> ~ In ("#"%char :: i) l.
Proof. intros F I. destruct (proj1 (Forall_forall _ _) F _ I) as [_ H]. cbn in H. congruence. Qed.
Lemma plist_mark ty i : plist_of (write_arp (MMark ty i)) = ["#"%char :: i].
Proof. reflexivity. Qed.
Lemma join_nonempty l : Forall id_ok l -> l <> [] -> join (S_ " ") l <> [].
Proof. intros F N E. destruct l as [|x l]; [congruence|]. apply Forall_cons_iff in F as [[_ Fx] _]. destruct x as [|c x]; [exact Fx|]. destruct l; discriminate. Qed.
Lemma split_ids l : Forall id_ok l -> l <> [] -> split_char " " (join (S_ " ") l) = l.
Proof.
  intros F N. apply split_join; [exact N|]. apply forallb_forall. intros x I. destruct (proj1 (Forall_forall _ _) F x I) as [H _]. rewrite H. reflexivity.
Qed.
Lemma plist_spanner ty is : Forall id_ok is -> is <> [] ->
  exists rest, plist_of (write_arp (MSpanner ty is)) = ("#"%char :: hd [] is) :: is ++ rest /\ Forall (fun i => i = "#"%char :: last is []) rest.
Proof.
  intros F N. unfold plist_of, write_arp. cbn [a_plist a_start a_end].
  destruct (join (S_ " ") is) as [|c j] eqn:J; [exfalso; exact (join_nonempty is F N J)|]. rewrite <- J, (split_ids is F N), (remove_other _ _ (sharp_not (hd [] is) is F)).
  destruct (str_eqb (last is []) (hd [] is)) eqn:E; [exists []; rewrite app_nil_r; split; [reflexivity|constructor]|].
  exists ["#"%char :: last is []]. split; [|constructor; [reflexivity|constructor]].
  cbn [remove_first]. destruct (str_eqb ("#"%char :: last is []) ("#"%char :: hd [] is)) eqn:E2.
  - apply str_eqb_eq in E2. injection E2 as E2. rewrite E2, str_eqb_refl in E. discriminate.
  - rewrite (remove_other _ _ (sharp_not _ is F)). reflexivity.
Qed.

Definition SP := S_ "m21ArpeggioMarkSpanner".
Definition TY := S_ "m21ArpeggioMarkType".
Lemma set_all k l m j b : fold_left (fun m i => setAttr m (removeOctothorpe i) SP (show_N k)) l m j b
  = if str_eqb b SP && existsb (fun i => str_eqb j (removeOctothorpe i)) l then Some (show_N k) else m j b.
Proof.
  revert m. induction l as [|i l IH]; intro m; cbn [fold_left existsb]; [rewrite andb_false_r; reflexivity|]. rewrite IH. unfold setAttr.
  destruct (str_eqb b SP), (str_eqb j (removeOctothorpe i)), (existsb (fun i => str_eqb j (removeOctothorpe i)) l); reflexivity.
Qed.
Lemma last_in (is : list str) d : is <> [] -> In (last is d) is.
Proof. intro H. destruct (exists_last H) as (a & x & ->). rewrite last_last. apply in_or_app. right. now left. Qed.
(** What one element sets. *)
Lemma pp_one k a m j b : arp_ok a ->
  ppArpeg k (write_arp a) m j b =
  match a with
  | MMark ty i => if str_eqb b TY && str_eqb j i then Some ty else m j b
  | MSpanner ty is => if str_eqb b SP && existsb (str_eqb j) is then Some (show_N k) else m j b
  end.
Proof.
  intros (Ht & F & N). destruct a as [ty i|ty is]; cbn [type_ ids_of] in *.
  - unfold ppArpeg. rewrite plist_mark. cbn [removeOctothorpe]. change (Ascii.eqb "#" "#") with true. cbv iota. unfold setAttr. cbn [a_arrow a_order write_arp].
    rewrite (type_back ty Ht). fold TY. rewrite andb_comm. reflexivity.
  - destruct (plist_spanner ty is F N) as (rest & E & R). unfold ppArpeg. rewrite E.
    destruct (is ++ rest) as [|x l] eqn:X; [destruct is; [congruence|discriminate]|]. fold SP. rewrite set_all, <- X. cbn [existsb].
    cbn [removeOctothorpe]. change (Ascii.eqb "#" "#") with true. cbv iota. rewrite existsb_app.
    assert (A : existsb (fun i => str_eqb j (removeOctothorpe i)) is = existsb (str_eqb j) is).
    { clear - F. induction F as [|i is Fi F IH]; [reflexivity|]. cbn [existsb]. rewrite (octothorpe_ok i Fi), IH. reflexivity. }
    assert (B : existsb (fun i => str_eqb j (removeOctothorpe i)) rest = true -> existsb (str_eqb j) is = true).
    { intro H. apply existsb_exists in H as (i & Ii & H). rewrite (proj1 (Forall_forall _ _) R i Ii) in H. cbn in H. apply existsb_exists. exists (last is []). split; [apply last_in, N|exact H]. }
    assert (C : str_eqb j (hd [] is) = true -> existsb (str_eqb j) is = true).
    { intro H. destruct is as [|y is]; [congruence|]. cbn in *. rewrite H. reflexivity. }
    rewrite A. destruct (str_eqb b SP); [|reflexivity]. cbn [andb].
    destruct (existsb (str_eqb j) is) eqn:Ei; [rewrite orb_true_r; reflexivity|].
    destruct (str_eqb j (hd [] is)); [discriminate (C eq_refl)|]. destruct (existsb _ rest); [discriminate (B eq_refl)|]. reflexivity.
Qed.

(** The last spanner of a note, the last mark of a note. *)
Fixpoint last_spanner (k : N) (l : list marp) (j : str) (d : option str) : option str :=
  match l with
  | [] => d
  | MSpanner _ is :: l' => last_spanner (N.succ k) l' j (if existsb (str_eqb j) is then Some (show_N k) else d)
  | MMark _ _ :: l' => last_spanner (N.succ k) l' j d
  end.
Fixpoint last_mark (l : list marp) (j : str) (d : option str) : option str :=
  match l with
  | [] => d
  | MMark ty i :: l' => last_mark l' j (if str_eqb j i then Some ty else d)
  | MSpanner _ _ :: l' => last_mark l' j d
  end.
Lemma pp_all l : Forall arp_ok l -> forall k m j, ppArpeggios k (map write_arp l) m j SP = last_spanner k l j (m j SP) /\ ppArpeggios k (map write_arp l) m j TY = last_mark l j (m j TY).
Proof.
  induction 1 as [|a l Ha Hl IH]; intros k m j; [split; reflexivity|]. cbn [map ppArpeggios]. destruct (IH (N.succ k) (ppArpeg k (write_arp a) m) j) as [-> ->].
  rewrite !(pp_one k a m j _ Ha). destruct a as [ty i|ty is]; cbn [last_spanner last_mark]; split; reflexivity.
Qed.

(** Each note in at most one spanner, with at most one mark. *)
Definition separate (l : list marp) : Prop :=
  ForallOrdPairs (fun a b => is_spanner a = is_spanner b -> forall i, In i (ids_of a) -> ~ In i (ids_of b)) l.

Lemma last_spanner_none l : forall k j d, (forall ty is, In (MSpanner ty is) l -> ~ In j is) -> last_spanner k l j d = d.
Proof.
  induction l as [|a l IH]; intros k j d H; [reflexivity|]. destruct a as [ty i|ty is]; cbn [last_spanner].
  - apply IH. intros ty' is' I. apply (H ty'). now right.
  - rewrite IH by (intros ty' is' I; apply (H ty'); now right). destruct (existsb (str_eqb j) is) eqn:E; [|reflexivity]. exfalso.
    apply existsb_exists in E as (x & Ix & E). apply str_eqb_eq in E. subst x. exact (H ty is (or_introl eq_refl) Ix).
Qed.
Lemma last_mark_none l : forall j d, (forall ty i, In (MMark ty i) l -> j <> i) -> last_mark l j d = d.
Proof.
  induction l as [|a l IH]; intros j d H; [reflexivity|]. destruct a as [ty i|ty is]; cbn [last_mark].
  - rewrite IH by (intros ty' i' I; apply (H ty'); now right). rewrite (proj2 (str_eqb_neq j i)); [reflexivity|]. apply (H ty). now left.
  - apply IH. intros ty' i' I. apply (H ty'). now right.
Qed.
Lemma last_mark_at l j ty d : separate l -> In (MMark ty j) l -> last_mark l j d = Some ty.
Proof.
  intros S I. revert d. induction S as [|a l Fa S IH]; intro d; [destruct I|]. destruct I as [->|I].
  - cbn [last_mark]. rewrite str_eqb_refl. apply last_mark_none. intros ty' i' I' E. subst i'. exact (proj1 (Forall_forall _ _) Fa _ I' eq_refl j (or_introl eq_refl) (or_introl eq_refl)).
  - destruct a as [ty' i'|ty' is']; cbn [last_mark]; apply IH; exact I.
Qed.
(** Numbers of later spanners differ. *)
Lemma last_spanner_later l : forall k j k', (k' < k)%N -> forall d, d <> Some (show_N k') -> last_spanner k l j d <> Some (show_N k').
Proof.
  induction l as [|a l IH]; intros k j k' L d H; [exact H|]. destruct a as [ty i|ty is]; cbn [last_spanner]; apply IH; try lia; [exact H|].
  destruct (existsb (str_eqb j) is); [|exact H]. intro E. injection E as E. apply show_N_inj in E. lia.
Qed.

Lemma spanners_read L notes : separate L -> Forall arp_ok L -> forall (m : attrs) k0,
  (forall j, m j SP = last_spanner k0 L j None) ->
  forall l pre k, L = pre ++ l -> k = (k0 + N.of_nat (length pre))%N ->
  spanners_from m notes k (map write_arp l)
  = flat_map (fun a => match a with MSpanner ty is => [(ty, filter (fun i => existsb (str_eqb i) is) notes)] | MMark _ _ => [] end) l.
Proof.
  intros S OK m k0 Hm. induction l as [|a l IH]; intros pre k EL Ek; [reflexivity|]. cbn [map spanners_from flat_map].
  rewrite (IH (pre ++ [a]) (N.succ k)); [|rewrite <- app_assoc; exact EL|rewrite app_length; cbn; lia]. f_equal.
  assert (Ha : arp_ok a) by (apply (proj1 (Forall_forall _ _) OK); rewrite EL; apply in_or_app; right; now left).
  destruct Ha as (Ht & F & N). destruct a as [ty i|ty is]; cbn [type_ ids_of] in *; [rewrite plist_mark; reflexivity|].
  destruct (plist_spanner ty is F N) as (rest & E & _). rewrite E. destruct (is ++ rest) as [|x r] eqn:X; [destruct is; [congruence|discriminate]|].
  cbn [a_arrow a_order write_arp]. rewrite (type_back ty Ht). f_equal. f_equal. unfold spanned. apply filter_ext. intro j. fold SP. rewrite Hm, EL.
  assert (App : forall p q k0 d, last_spanner k0 (p ++ q) j d = last_spanner (k0 + N.of_nat (length p)) q j (last_spanner k0 p j d)).
  { clear. induction p as [|a p IH]; intros q k0 d; [cbn [app last_spanner length]; rewrite N.add_0_r; reflexivity|]. destruct a; cbn [app last_spanner]; rewrite IH; f_equal; cbn [length]; lia. }
  rewrite App, <- Ek. cbn [last_spanner].
  assert (Later : forall ty' is', In (MSpanner ty' is') l -> forall i, In i is -> ~ In i is').
  { intros ty' is' I'. assert (S' : separate (MSpanner ty is :: l)).
    { clear - S EL. subst L. revert S. induction pre as [|b pre IH]; intro S; [exact S|]. inversion S; subst. apply IH. assumption. }
    inversion S' as [|? ? Fa _]; subst. intros i Ii J. exact (proj1 (Forall_forall _ _) Fa _ I' eq_refl i Ii J). }
  destruct (existsb (str_eqb j) is) eqn:Ei.
  - rewrite last_spanner_none; [apply str_eqb_refl|]. intros ty' is' I'. apply existsb_exists in Ei as (y & Iy & Ey). apply str_eqb_eq in Ey. subst y. exact (Later ty' is' I' j Iy).
  - assert (D : last_spanner (N.succ k) l j (last_spanner k0 pre j None) <> Some (show_N k)).
    { apply last_spanner_later; [lia|]. clear - Ek. assert (G : forall p k0 d, d <> Some (show_N k) -> (k0 + N.of_nat (length p) <= k)%N -> last_spanner k0 p j d <> Some (show_N k)).
      { induction p as [|a p IH]; intros h d H L; [exact H|]. cbn [length] in L. destruct a as [ty i|ty is]; cbn [last_spanner]; apply IH; try lia; [exact H|].
        destruct (existsb (str_eqb j) is); [|exact H]. intro E. injection E as E. apply show_N_inj in E. lia. }
      apply G; [discriminate|lia]. }
    destruct (last_spanner _ l j _) as [w|]; [|reflexivity]. apply str_eqb_neq. congruence.
Qed.

(** Every arpeggio over several notes comes back with its type and its notes (in the
    order of the file), every mark at a note with its type. *)
Theorem C145_arpeggios_partial : forall notes arps,
  Forall arp_ok arps -> separate arps ->
  fst (read_arps notes (map write_arp arps))
  = flat_map (fun a => match a with MSpanner ty is => [(ty, filter (fun i => existsb (str_eqb i) is) notes)] | MMark _ _ => [] end) arps
  /\ (forall n j, nth_error notes n = Some j ->
      exists marks, nth_error (snd (read_arps notes (map write_arp arps))) n = Some marks
        /\ (forall ty, In ty marks <-> In (MMark ty j) arps) /\ length marks <= 1).
Proof.
  intros notes arps OK S. unfold read_arps. cbn [fst snd]. set (m := ppArpeggios 0 (map write_arp arps) noAttrs).
  assert (M : forall j, m j SP = last_spanner 0 arps j None /\ m j TY = last_mark arps j None) by (intro j; apply pp_all, OK).
  split.
  - apply (spanners_read arps notes S OK m 0%N (fun j => proj1 (M j)) arps []); reflexivity.
  - intros n j E. exists (marks_at m j). split; [apply map_nth_error, E|]. unfold marks_at. fold TY. rewrite (proj2 (M j)).
    assert (Dec : (exists ty, In (MMark ty j) arps) \/ (forall ty i, In (MMark ty i) arps -> j <> i)).
    { clear. induction arps as [|a l IH]; [right; intros ty i []|]. destruct IH as [(ty & I)|H]; [left; exists ty; now right|].
      destruct a as [ty i|ty is]; [|right; intros ty' i' [E|I]; [discriminate|apply (H ty' i' I)]].
      destruct (str_eqb j i) eqn:E; [apply str_eqb_eq in E; subst; left; exists ty; now left|]. apply str_eqb_neq in E.
      right. intros ty' i' [X|I]; [injection X as <- <-; exact E|apply (H ty' i' I)]. }
    destruct Dec as [(ty & I)|H].
    + rewrite (last_mark_at arps j ty None S I). destruct (proj1 (Forall_forall _ _) OK _ I) as (Ht & _ & _). cbn [type_] in Ht.
      assert (X : match ty with [] => [] | _ => [ty] end = [ty]) by (cbn in Ht; destruct Ht as [<-|[<-|[<-|[<-|[]]]]]; reflexivity).
      assert (Y : match Some ty with Some [] => [] | Some t0 => [t0] | None => [] end = [ty]) by (destruct ty; exact X). rewrite Y. split; [|cbn; lia].
      intro ty'. split; [intros [<-|[]]; exact I|]. intro I'. left. pose proof (last_mark_at arps j ty' None S I') as A. rewrite (last_mark_at arps j ty None S I) in A. congruence.
    + rewrite last_mark_none by exact H. split; [|cbn; lia]. intro ty. split; [intros []|]. intro I. exact (H ty j I eq_refl).
Qed.
Print Assumptions C145_arpeggios_partial.

(** A note in two spanners is only in the second; of two marks only the last is read. *)
Theorem C145_two_spanners_refuted : exists notes a b, arp_ok a /\ arp_ok b /\ ids_of a = [S_ "n1"; S_ "n2"] /\ In (S_ "n2") (ids_of b)
  /\ fst (read_arps notes (map write_arp [a; b])) = [(type_ a, [S_ "n1"]); (type_ b, ids_of b)].
Proof.
  exists [S_ "n1"; S_ "n2"; S_ "n3"], (MSpanner (S_ "up") [S_ "n1"; S_ "n2"]), (MSpanner (S_ "down") [S_ "n2"; S_ "n3"]).
  assert (G : forall i, In i [S_ "n1"; S_ "n2"; S_ "n3"] -> id_ok i) by (intros i H; cbn in H; destruct H as [<-|[<-|[<-|[]]]]; split; (reflexivity || discriminate)).
  split; [split; [cbn; auto|split; [repeat (apply Forall_cons; [apply G; cbn; auto|]); apply Forall_nil|discriminate]]|].
  split; [split; [cbn; auto|split; [repeat (apply Forall_cons; [apply G; cbn; auto|]); apply Forall_nil|discriminate]]|].
  split; [reflexivity|]. split; [now left|]. vm_compute. reflexivity.
Qed.
Print Assumptions C145_two_spanners_refuted.
Theorem C145_two_marks_refuted : exists i, snd (read_arps [i] (map write_arp [MMark (S_ "up") i; MMark (S_ "down") i])) = [[S_ "down"]].
Proof. exists (S_ "n1"). vm_compute. reflexivity. Qed.
Print Assumptions C145_two_marks_refuted.

(** In files of others: the type by the direction and the arrow; an arrow without
    direction goes up, a direction down shows an arrow. *)
Theorem C145_type_read : forall arrow order,
  In (type_of arrow order) types
  /\ (type_of arrow order = S_ "up" <-> arrow = S_ "true" /\ (order = [] \/ order = S_ "up"))
  /\ (arrow = [] \/ arrow = S_ "false" \/ arrow = S_ "true" -> (type_of arrow order = S_ "down" <-> order = S_ "down"))
  /\ (arrow = [] \/ arrow = S_ "false" \/ arrow = S_ "true" -> (type_of arrow order = S_ "non-arpeggio" <-> order = S_ "nonarp")).
Proof.
  intros arrow order. unfold type_of.
  destruct (str_eqb arrow []) eqn:E1; [apply str_eqb_eq in E1|apply str_eqb_neq in E1];
  (destruct (str_eqb arrow (S_ "false")) eqn:E2; [apply str_eqb_eq in E2|apply str_eqb_neq in E2]);
  (destruct (str_eqb arrow (S_ "true")) eqn:E3; [apply str_eqb_eq in E3|apply str_eqb_neq in E3]);
  (destruct (str_eqb order []) eqn:O1; [apply str_eqb_eq in O1|apply str_eqb_neq in O1]);
  (destruct (str_eqb order (S_ "up")) eqn:O2; [apply str_eqb_eq in O2|apply str_eqb_neq in O2]);
  (destruct (str_eqb order (S_ "down")) eqn:O3; [apply str_eqb_eq in O3|apply str_eqb_neq in O3]);
  (destruct (str_eqb order (S_ "nonarp")) eqn:O4; [apply str_eqb_eq in O4|apply str_eqb_neq in O4]);
  cbn [orb]; try (subst; discriminate); try congruence;
  (split; [unfold types; cbn [In]; tauto|]; split; [|split]; intuition (try discriminate; try congruence)).
Qed.
Print Assumptions C145_type_read.

Definition case_arps : list marp := [MSpanner (S_ "down") [S_ "n4"; S_ "n1"]; MMark (S_ "non-arpeggio") (S_ "n2"); MSpanner (S_ "normal") [S_ "n3"; S_ "n2"; S_ "n5"]].
Example C145_arpeggios_nonvacuous :
  read_arps [S_ "n1"; S_ "n2"; S_ "n3"; S_ "n4"; S_ "n5"] (map write_arp case_arps)
  = ([(S_ "down", [S_ "n1"; S_ "n4"]); (S_ "normal", [S_ "n2"; S_ "n3"; S_ "n5"])], [[]; [S_ "non-arpeggio"]; []; []; []])
  /\ Forall arp_ok case_arps /\ separate case_arps.
Proof.
  split; [vm_compute; reflexivity|]. assert (G : forall i, In i [S_ "n1"; S_ "n2"; S_ "n3"; S_ "n4"; S_ "n5"] -> id_ok i).
  { intros i H. cbn in H. destruct H as [<-|[<-|[<-|[<-|[<-|[]]]]]]; split; (reflexivity || discriminate). }
  split.
  - repeat (apply Forall_cons; [split; [cbn; auto 6|split; [repeat (apply Forall_cons; [apply G; cbn; auto 8|]); apply Forall_nil|discriminate]]|]). apply Forall_nil.
  - repeat (constructor; [repeat (apply Forall_cons; [intros E i I J; try discriminate E; cbn in I, J; intuition (subst; discriminate)|]); apply Forall_nil|]). constructor.
Qed.

(** Files of other programs: the notes of an arpeggio are all those named in its list, as
    its start or as its end; naming one note in several ways does not make it two. *)
Lemma remove_in x y l : In y (remove_first x l) -> In y l.
Proof. induction l as [|z l IH]; [intros []|]. cbn [remove_first]. destruct (str_eqb x z); [now right|]. intros [H|H]; [now left|right; auto]. Qed.
Lemma remove_or x y l : In y l -> y = x \/ In y (remove_first x l).
Proof.
  induction l as [|z l IH]; [intros []|]. cbn [remove_first]. intros [->|H].
  - destruct (str_eqb x y) eqn:E; [apply str_eqb_eq in E; auto|right; now left].
  - destruct (str_eqb x z); [now right|]. destruct (IH H) as [K|K]; [now left|right; now right].
Qed.
Lemma remove_nodup x l : NoDup l -> NoDup (remove_first x l) /\ ~ In x (remove_first x l).
Proof.
  induction 1 as [|z l N D IH]; [split; [constructor|intros []]|]. cbn [remove_first]. destruct (str_eqb x z) eqn:E.
  - apply str_eqb_eq in E. subst. auto.
  - destruct IH as (A & B). split; [constructor; [intro I; apply N; eapply remove_in; exact I|exact A]|].
    intros [K|K]; [subst; rewrite str_eqb_refl in E; discriminate|auto].
Qed.
Lemma first_once x (l : list str) (m := match x with [] => l | i => i :: remove_first i l end) :
  (forall i, In i m <-> In i l \/ (i <> [] /\ i = x)) /\ (NoDup l -> NoDup m).
Proof.
  subst m. destruct x as [|c x]; [split; [intro i; split; [auto|intros [H|(N & H)]; [exact H|congruence]]|auto]|]. split.
  - intro i. cbn [In]. split.
    + intros [<-|H]; [right; split; [discriminate|reflexivity]|left; eapply remove_in; exact H].
    + intros [H|(_ & ->)]; [destruct (remove_or (c :: x) i l H) as [->|K]; auto|now left].
  - intro D. destruct (remove_nodup (c :: x) l D) as (A & B). constructor; assumption.
Qed.
Lemma last_once x (l : list str) (m := match x with [] => l | i => remove_first i l ++ [i] end) :
  (forall i, In i m <-> In i l \/ (i <> [] /\ i = x)) /\ (NoDup l -> NoDup m).
Proof.
  subst m. destruct x as [|c x]; [split; [intro i; split; [auto|intros [H|(N & H)]; [exact H|congruence]]|auto]|]. split.
  - intro i. rewrite in_app_iff. cbn [In]. split.
    + intros [H|[<-|[]]]; [left; eapply remove_in; exact H|right; split; [discriminate|reflexivity]].
    + intros [H|(_ & ->)]; [destruct (remove_or (c :: x) i l H) as [->|K]; auto|auto].
  - intro D1. destruct (remove_nodup (c :: x) l D1) as (A & B).
    clear - A B. induction (remove_first (c :: x) l) as [|y r IH]; [constructor; [intros []|constructor]|]. inversion A as [|? ? N D]. cbn [app]. constructor.
    + rewrite in_app_iff. intros [K|[K|[]]]; [auto|]. apply B. left. symmetry. exact K.
    + apply IH; [exact D|]. intro K. apply B. right. exact K.
Qed.
Theorem C145_named_once : forall e, let list := match a_plist e with [] => [] | p => split_char " " p end in
  (forall i, In i (plist_of e) <-> In i list \/ (i <> [] /\ (i = a_start e \/ i = a_end e)))
  /\ (NoDup list -> NoDup (plist_of e)).
Proof.
  intro e. cbv zeta. unfold plist_of. set (l := match a_plist e with [] => [] | p => split_char " " p end). clearbody l.
  destruct (first_once (a_start e) l) as (I1 & D1). destruct (last_once (a_end e) (match a_start e with [] => l | i => i :: remove_first i l end)) as (I2 & D2).
  destruct (a_start e), (a_end e); cbv zeta in *; (split; [intro i; specialize (I1 i); specialize (I2 i); cbv zeta in *; tauto|intro D; apply D2, D1, D]).
Qed.
Print Assumptions C145_named_once.
Example C145_named_once_nonvacuous : plist_of (mkArpeg (S_ "#a #b #c") (S_ "#a") (S_ "#c") [] []) = [S_ "#a"; S_ "#b"; S_ "#c"]
  /\ plist_of (mkArpeg (S_ "#a") (S_ "#a") (S_ "#a") [] []) = [S_ "#a"].
Proof. split; reflexivity. Qed.
