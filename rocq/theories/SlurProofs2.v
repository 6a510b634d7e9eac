(** What is recorded for each slur. *)
From Coq Require Import Lia Sorted Permutation.
From Verif Require Import SlurModel SlurProofs.

Lemma id_eqb_eq a b : id_eqb a b = true <-> a = b.
Proof.
  unfold id_eqb. rewrite andb_true_iff, !Nat.eqb_eq. destruct a, b; cbn. split; [intros [-> ->]; reflexivity|].
  intros E. injection E as -> ->. auto.
Qed.
Lemma id_eqb_refl a : id_eqb a a = true.
Proof. now apply id_eqb_eq. Qed.

(** The pairs with the number of the opening: among the openings of the start token, the
    first pair gets the last one. *)
Definition starts_at (x : nat * nat) (p : stok * stok) : bool := id_eqb (k_id (fst p)) x.
Definition ends_at (x : nat * nat) (p : stok * stok) : bool := id_eqb (k_id (snd p)) x.
Definition num_of (pre : list (stok * stok)) (a : stok) : Z :=
  (Z.of_nat (count_char "(" (k_text a)) - Z.of_nat (length (filter (starts_at (k_id a)) pre)))%Z.
Fixpoint number_pairs (pre P : list (stok * stok)) : list (Z * (stok * stok)) :=
  match P with
  | [] => []
  | p :: P' => (num_of pre (fst p), p) :: number_pairs (pre ++ [p]) P'
  end.
Lemma number_pairs_app P : forall pre Q, number_pairs pre (P ++ Q) = number_pairs pre P ++ number_pairs (pre ++ P) Q.
Proof.
  induction P as [|p P IH]; intros pre Q; cbn; [now rewrite app_nil_r|]. now rewrite IH, <- app_assoc.
Qed.

Definition entry (q : Z * (stok * stok)) : Z * (nat * nat) := (fst q, k_id (fst (snd q))).
Definition recorded (st : slst) : Prop :=
  (forall x, s_startCount st x = Z.of_nat (length (filter (starts_at x) (s_pairs st)))) /\
  (forall x, (0 <= s_endCount st x)%Z) /\
  (forall b, slurs_ending_at st b =
     map entry (filter (fun q => ends_at b (snd q)) (number_pairs [] (s_pairs st)))).

Lemma recorded_0 : recorded s0.
Proof. split; [reflexivity|]. split; [cbn; lia|reflexivity]. Qed.

Lemma flat_map_ext_in {A B} (f g : A -> list B) l : (forall x, In x l -> f x = g x) -> flat_map f l = flat_map g l.
Proof.
  induction l as [|x l IH]; intros H; [reflexivity|]. cbn. rewrite (H x) by now left. f_equal. apply IH.
  intros y Hy. apply H. now right.
Qed.

Lemma tag_number_pos n : (1 <= n)%Z -> tag_number n = n.
Proof. intros H. unfold tag_number. destruct (Z.ltb_spec 1 n); lia. Qed.

Lemma slurs_read_all st b : slurs_ending_at st b =
  flat_map (fun i => match s_startId st b (Z.of_nat i) with
                     | Some a => [(s_startNum st b (Z.of_nat i), a)]
                     | None => [] end) (seq 1 (Z.to_nat (s_endCount st b))).
Proof.
  unfold slurs_ending_at. apply flat_map_ext_in. intros i Hi. apply in_seq in Hi.
  rewrite tag_number_pos by lia. reflexivity.
Qed.

Lemma filter_snoc {A} (f : A -> bool) l x : filter f (l ++ [x]) = filter f l ++ (if f x then [x] else []).
Proof. rewrite filter_app. cbn. destruct (f x); reflexivity. Qed.

Lemma recorded_link st a b : recorded st -> recorded (link_slur st a b).
Proof.
  intros [R1 [R2 R3]]. split; [|split].
  - intros x. cbn. unfold upd_id. rewrite filter_snoc, app_length. unfold starts_at at 2. cbn [fst].
    destruct (id_eqb x (k_id a)) eqn:E.
    + apply id_eqb_eq in E. subst x. rewrite R1, id_eqb_refl. cbn. lia.
    + rewrite R1. destruct (id_eqb (k_id a) x) eqn:E'; [apply id_eqb_eq in E'; subst x; rewrite id_eqb_refl in E; discriminate|].
      cbn. lia.
  - intros x. cbn. unfold upd_id. destruct (id_eqb x (k_id b)); [specialize (R2 (k_id b)); lia|apply R2].
  - intros x. rewrite slurs_read_all. cbn [link_slur s_pairs s_endCount s_startId s_startNum].
    rewrite number_pairs_app, filter_app, map_app. cbn [number_pairs app filter]. unfold ends_at at 2. cbn [snd fst].
    pose proof (R2 (k_id b)) as Eb.
    destruct (id_eqb (k_id b) x) eqn:E.
    + apply id_eqb_eq in E. subst x. unfold upd_id at 1. rewrite id_eqb_refl.
      replace (Z.to_nat (s_endCount st (k_id b) + 1)) with (S (Z.to_nat (s_endCount st (k_id b)))) by lia.
      rewrite seq_S, flat_map_app. f_equal.
      * rewrite <- R3, slurs_read_all. apply flat_map_ext_in. intros i Hi. apply in_seq in Hi. unfold upd_tag.
        rewrite tag_number_pos by lia.
        destruct (Z.eqb_spec (Z.of_nat i) (s_endCount st (k_id b) + 1)); [lia|]. rewrite andb_false_r. reflexivity.
      * cbn [flat_map map app]. unfold upd_tag. rewrite id_eqb_refl, tag_number_pos by lia.
        replace (Z.of_nat (1 + Z.to_nat (s_endCount st (k_id b)))) with (s_endCount st (k_id b) + 1)%Z by lia.
        rewrite Z.eqb_refl. cbn. unfold entry, num_of. cbn. rewrite R1. f_equal. f_equal. lia.
    + unfold upd_id at 1.
      assert (E' : id_eqb x (k_id b) = false).
      { destruct (id_eqb x (k_id b)) eqn:E'; [|reflexivity]. apply id_eqb_eq in E'. subst x. rewrite id_eqb_refl in E. discriminate. }
      rewrite E'. cbn [map]. rewrite app_nil_r, <- R3, slurs_read_all. apply flat_map_ext_in. intros i Hi. unfold upd_tag.
      rewrite E'. reflexivity.
Qed.

Lemma recorded_same st st' : s_pairs st' = s_pairs st -> s_startCount st' = s_startCount st ->
  s_endCount st' = s_endCount st -> s_startId st' = s_startId st -> s_startNum st' = s_startNum st ->
  recorded st -> recorded st'.
Proof.
  intros E1 E2 E3 E4 E5 [R1 [R2 R3]]. unfold recorded, slurs_ending_at. rewrite E1, E2, E3, E4, E5. auto.
Qed.

Lemma recorded_step st m st' : mark_ok m -> recorded st -> mark_step (Some st) m = Some st' -> recorded st'.
Proof.
  intros K R E. destruct (g_open m) eqn:O.
  - rewrite (mark_step_open st m K O) in E. destruct (negb _); [discriminate|]. injection E as <-.
    eapply recorded_same; [..|exact R]; reflexivity.
  - rewrite (mark_step_close st m K O) in E. destruct (negb _); [discriminate|].
    assert (L : forall a t rest, recorded (set_opens (link_slur st a (g_tok m)) (g_level m) t rest)).
    { intros a t rest. eapply recorded_same; [..|apply (recorded_link st a (g_tok m) R)]; reflexivity. }
    destruct (s_opens st (g_level m) (g_layer m)); [|injection E as <-; apply L].
    destruct (other_layer st (g_level m)) as [t|].
    + destruct (s_opens st (g_level m) t); injection E as <-; [assumption|apply L].
    + injection E as <-. eapply recorded_same; [..|exact R]; reflexivity.
Qed.

Lemma recorded_run ms : forall st st', Forall mark_ok ms -> recorded st ->
  fold_left mark_step ms (Some st) = Some st' -> recorded st'.
Proof.
  induction ms as [|m ms IH]; intros st st' K R E; [cbn in E; injection E as <-; assumption|].
  inversion K as [|? ? Km Kl]; subst. cbn in E.
  destruct (mark_step (Some st) m) as [st1|] eqn:E1; [|rewrite fold_none in E; discriminate].
  eapply IH; [assumption| |exact E]. eapply recorded_step; eassumption.
Qed.

(** * Tokens have distinct identities *)
Lemma enumerate_seq {A} (l : list A) n : map fst (enumerate_from n l) = seq n (length l).
Proof. revert n; induction l as [|x l IH]; intros n; cbn; [reflexivity|]. now rewrite IH. Qed.

Definition pid (p : nat * stok) : nat * nat := k_id (snd p).
Lemma number_row_ids r row : map pid (number_row r row) = map (pair r) (seq 0 (length row)).
Proof.
  unfold number_row. rewrite map_map. rewrite <- (enumerate_seq row 0), map_map. reflexivity.
Qed.

Lemma ids_from (rows : list (list str)) n :
  NoDup (map pid (flat_map (fun r => number_row (fst r) (snd r)) (enumerate_from n rows))) /\
  (forall x, In x (map pid (flat_map (fun r => number_row (fst r) (snd r)) (enumerate_from n rows))) -> n <= fst x).
Proof.
  revert n; induction rows as [|row rows IH]; intros n; cbn [enumerate_from flat_map fst snd map]; [split; [constructor|intros x []]|].
  destruct (IH (S n)) as [A B]. rewrite map_app, number_row_ids. split.
  - assert (N1 : NoDup (map (pair n) (seq 0 (length row)))).
    { apply FinFun.Injective_map_NoDup; [intros x y E; congruence|apply seq_NoDup]. }
    revert N1. generalize (seq 0 (length row)). intros l N1. induction l as [|x l IHl]; cbn; [assumption|].
    cbn in N1. inversion N1 as [|? ? Nx Nl]; subst. constructor; [|auto].
    rewrite in_app_iff. intros [C|C]; [contradiction|]. apply B in C. cbn in C. lia.
  - intros x Hx. apply in_app_iff in Hx as [Hx|Hx]; [apply in_map_iff in Hx as [c [<- _]]; cbn; lia|].
    apply B in Hx. lia.
Qed.

(** * The marks of one token stand together *)
Lemma nth_flat_map {A B} (f : A -> list B) (l : list A) : forall i m, nth_error (flat_map f l) i = Some m ->
  exists pre p post r, l = pre ++ p :: post /\ i = length (flat_map f pre) + r /\ nth_error (f p) r = Some m.
Proof.
  induction l as [|x l IH]; intros i m H; cbn in H; [destruct i; discriminate|].
  destruct (Nat.lt_ge_cases i (length (f x))) as [L|L].
  - rewrite nth_error_app1 in H by assumption. exists [], x, l, i. auto.
  - rewrite nth_error_app2 in H by assumption. destruct (IH _ _ H) as [pre [p [post [r [E [Ei Hr]]]]]].
    exists (x :: pre), p, post, r. split; [now rewrite E|]. split; [|assumption]. cbn. rewrite app_length. lia.
Qed.
Lemma nth_flat_map_at {A B} (f : A -> list B) pre p post r m : nth_error (f p) r = Some m ->
  nth_error (flat_map f (pre ++ p :: post)) (length (flat_map f pre) + r) = Some m.
Proof.
  intros H. rewrite flat_map_app. rewrite nth_error_app2 by lia.
  replace (length (flat_map f pre) + r - length (flat_map f pre)) with r by lia. cbn.
  rewrite nth_error_app1; [assumption|]. apply nth_error_Some. congruence.
Qed.
Lemma split_unique {A B} (key : A -> B) (pre pre' post post' : list A) p p' :
  NoDup (map key (pre ++ p :: post)) -> pre ++ p :: post = pre' ++ p' :: post' -> key p = key p' -> pre = pre' /\ p = p'.
Proof.
  revert pre'. induction pre as [|x pre IH]; intros pre' N E K; destruct pre' as [|x' pre']; cbn in E.
  - injection E as -> _. auto.
  - injection E as -> E. exfalso. cbn in N. inversion N as [|? ? Nx _]; subst. apply Nx.
    rewrite K. rewrite map_app. apply in_app_iff. right. now left.
  - injection E as -> E. exfalso. cbn in N. inversion N as [|? ? Nx _]; subst. apply Nx.
    rewrite <- K. rewrite map_app. apply in_app_iff. right. now left.
  - injection E as -> E. cbn in N. inversion N as [|? ? _ N']; subst. destruct (IH pre' N' E K) as [-> ->]. auto.
Qed.

Lemma nth_error_map_seq {A} (f : nat -> A) n r : nth_error (map f (seq 0 n)) r = if r <? n then Some (f r) else None.
Proof.
  destruct (Nat.ltb_spec r n).
  - rewrite nth_error_map. rewrite (nth_error_nth' (seq 0 n) 0) by (rewrite seq_length; assumption).
    cbn. now rewrite seq_nth by assumption.
  - apply nth_error_None. now rewrite map_length, seq_length.
Qed.

(** The openings of a token: consecutive positions, in order. *)
Lemma open_block rows i m : nth_error (slur_marks rows) i = Some m -> g_open m = true ->
  exists base, i = base + g_idx m /\ g_idx m < count_char "(" (k_text (g_tok m)) /\
    (forall y, y < count_char "(" (k_text (g_tok m)) ->
       nth_error (slur_marks rows) (base + y) = Some (mkM (g_layer m) (g_tok m) true y)) /\
    (forall i' m', nth_error (slur_marks rows) i' = Some m' -> g_open m' = true ->
       k_id (g_tok m') = k_id (g_tok m) -> i' = base + g_idx m' /\ g_tok m' = g_tok m).
Proof.
  intros H O. unfold slur_marks in *.
  assert (Loc : forall p r m, nth_error (token_marks p) r = Some m -> g_open m = true ->
            m = mkM (fst p) (snd p) true (g_idx m) /\ g_idx m < count_char "(" (k_text (snd p)) /\
            r = count_char ")" (k_text (snd p)) + g_idx m /\ is_null (k_text (snd p)) = false).
  { intros p r m0 Hr O0. unfold token_marks in Hr. destruct (is_null (k_text (snd p))); [destruct r; discriminate|].
    destruct (Nat.lt_ge_cases r (count_char ")" (k_text (snd p)))) as [L|L].
    - rewrite nth_error_app1 in Hr by (now rewrite map_length, seq_length).
      rewrite nth_error_map_seq in Hr. destruct (r <? _); [|discriminate]. injection Hr as <-. discriminate.
    - rewrite nth_error_app2 in Hr by (now rewrite map_length, seq_length).
      rewrite nth_error_map_seq, map_length, seq_length in Hr.
      destruct (Nat.ltb_spec (r - count_char ")" (k_text (snd p))) (count_char "(" (k_text (snd p)))); [|discriminate].
      injection Hr as <-. cbn. repeat split; lia. }
  destruct (nth_flat_map _ _ _ _ H) as [pre [p [post [r [E [Ei Hr]]]]]].
  destruct (Loc p r m Hr O) as [Em [Li [Er Nn]]].
  assert (Et : g_tok m = snd p) by (rewrite Em; reflexivity).
  assert (El : g_layer m = fst p) by (rewrite Em; reflexivity).
  exists (length (flat_map token_marks pre) + count_char ")" (k_text (snd p))).
  split; [lia|]. split; [now rewrite Et|]. split.
  - intros y Hy. rewrite Et in Hy. rewrite E, <- Nat.add_assoc. apply nth_flat_map_at.
    unfold token_marks. rewrite Nn. rewrite nth_error_app2 by (rewrite map_length, seq_length; lia).
    rewrite map_length, seq_length, nth_error_map_seq.
    replace (count_char ")" (k_text (snd p)) + y - count_char ")" (k_text (snd p))) with y by lia.
    destruct (Nat.ltb_spec y (count_char "(" (k_text (snd p)))); [|lia]. now rewrite Et, El.
  - intros i' m' H' O' Id. destruct (nth_flat_map _ _ _ _ H') as [pre' [p' [post' [r' [E' [Ei' Hr']]]]]].
    destruct (Loc p' r' m' Hr' O') as [Em' [Li' [Er' _]]].
    assert (Et' : g_tok m' = snd p') by (rewrite Em'; reflexivity).
    assert (N : NoDup (map pid (pre ++ p :: post))).
    { rewrite <- E. unfold track_tokens. apply ids_from. }
    destruct (split_unique pid pre pre' post post' p p' N) as [<- <-].
    + now rewrite <- E, <- E'.
    + unfold pid. rewrite <- Et, <- Et'. symmetry. exact Id.
    + split; [lia|congruence].
Qed.

(** A closing mark after an opening comes after all openings of that token. *)
Definition one_level (rows : list (list str)) : Prop :=
  forall m m', In m (slur_marks rows) -> In m' (slur_marks rows) -> g_open m = true -> g_open m' = true ->
    k_id (g_tok m) = k_id (g_tok m') -> g_level m = g_level m'.

Section Numbers.
Variable rows : list (list str).
Let ms := slur_marks rows.
Variable P : list (nat * nat).
Hypothesis Pair : forall i j, In (i, j) P -> i < j /\ exists l t t', opened ms l t i /\ closed ms l t' j.
Hypothesis Once : NoDup (map fst P).
Hypothesis Sorted_ : StronglySorted lt (map snd P).
Hypothesis Lifo : forall l t i j i', In (i, j) P -> opened ms l t i -> opened ms l t i' -> i < i' < j ->
  exists j', j' < j /\ In (i', j') P.
Hypothesis Levels : one_level rows.
Let tkp (p : nat * nat) : stok * stok := (tk ms (fst p), tk ms (snd p)).

Lemma once_j i j j' : In (i, j) P -> In (i, j') P -> j = j'.
Proof.
  clear -Once. induction P as [|[a b] Q IH]; intros H H'; [destruct H|]. cbn in Once. inversion Once as [|? ? Na Nq]; subst.
  assert (Q' : forall j, In (i, j) Q -> In i (map fst Q)) by (intros x Hx; apply in_map_iff; exists (i, x); auto).
  destruct H as [H|H], H' as [H'|H'].
  - congruence.
  - injection H as -> ->. exfalso. apply Na. eapply Q'; eassumption.
  - injection H' as -> ->. exfalso. apply Na. eapply Q'; eassumption.
  - auto.
Qed.

Lemma number_is_index Q i j R : P = Q ++ (i, j) :: R ->
  num_of (map tkp Q) (tk ms i) = Z.of_nat (S (g_idx (nth i ms dm))).
Proof.
  intros E.
  assert (Hij : In (i, j) P) by (rewrite E; apply in_app_iff; right; now left).
  destruct (Pair _ _ Hij) as [Lij [l [t [t' [Oi Cj]]]]].
  pose proof Oi as [m [Mi [Om [Lm Tm]]]].
  assert (Em : nth i ms dm = m) by (apply nth_error_nth; exact Mi). 
  assert (Etk : tk ms i = g_tok m) by (unfold tk; now rewrite Em).
  rewrite Em. destruct (open_block rows i m Mi Om) as [base [Ei [Lx [Blk Inv]]]].
  set (N := count_char "(" (k_text (g_tok m))) in *.
  set (x := g_idx m) in *.
  (* positions of the openings of this token *)
  assert (Blo : forall y, y < N -> opened ms l t (base + y)).
  { intros y Hy. exists (mkM (g_layer m) (g_tok m) true y). split; [exact (Blk y Hy)|]. split; [reflexivity|].
    split; [|assumption]. rewrite <- Lm. apply Levels; cbn; auto.
    - eapply nth_error_In. exact (Blk y Hy).
    - eapply nth_error_In. exact Mi. }
  assert (After : forall a b, In (a, b) P -> (exists y, y < N /\ a = base + y) -> base + N <= b).
  { intros a b Hab [y [Hy Ea]]. destruct (Pair _ _ Hab) as [Lab [l1 [t1 [t2 [_ Cb]]]]].
    destruct (Nat.lt_ge_cases b (base + N)) as [C|C]; [|assumption]. exfalso.
    replace b with (base + (b - base)) in Cb by lia.
    eapply opened_closed; [apply (Blo (b - base)); lia|exact Cb]. }
  assert (Qi : forall a b, In (a, b) Q <-> In (a, b) P /\ b < j).
  { clear -E Sorted_. intros a b. subst P. rewrite map_app in Sorted_. cbn in Sorted_. split.
    - intros H. split; [apply in_app_iff; now left|].
      clear -H Sorted_. induction Q as [|q Q IH]; [destruct H|]. cbn in Sorted_. apply StronglySorted_inv in Sorted_ as [S' F].
      destruct H as [->|H]; [|auto]. rewrite Forall_forall in F. apply F. apply in_app_iff. right. now left.
    - intros [H L]. apply in_app_iff in H as [H|[H|H]]; [assumption|injection H as -> ->; lia|]. exfalso.
      clear -H L Sorted_. induction Q as [|q Q IH]; cbn in Sorted_; apply StronglySorted_inv in Sorted_ as [S' F]; [|auto].
      rewrite Forall_forall in F. specialize (F b). cbn in F. assert (In b (map snd R)) by (apply in_map_iff; exists (a, b); auto).
      specialize (F H0). lia. }
  assert (Cnt : length (filter (starts_at (k_id (tk ms i))) (map tkp Q)) = N - 1 - x).
  { set (Fl := filter (fun p => id_eqb (k_id (tk ms (fst p))) (k_id (tk ms i))) Q).
    assert (E1 : length (filter (starts_at (k_id (tk ms i))) (map tkp Q)) = length (map fst Fl)).
    { unfold Fl. rewrite map_length. clear. induction Q as [|q Q IH]; [reflexivity|]. cbn. unfold starts_at at 1. cbn.
      destruct (id_eqb _ _); cbn; now rewrite IH. }
    rewrite E1. clear E1.
    rewrite <- (seq_length (N - 1 - x) (i + 1)). apply Permutation_length. apply NoDup_Permutation.
    - assert (NQ : NoDup (map fst Q)).
      { clear -E Once. subst P. rewrite map_app in Once. revert Once. generalize (map fst ((i, j) :: R)). intros L.
        induction (map fst Q) as [|q q' IH]; intros H; [constructor|]. cbn in H. inversion H as [|? ? Nq Nr]; subst.
        constructor; [|auto]. intros C. apply Nq. apply in_app_iff. now left. }
      clear -NQ. unfold Fl. induction Q as [|q Q IH]; cbn; [constructor|]. cbn in NQ. inversion NQ as [|? ? Nq Nr]; subst.
      destruct (id_eqb _ _); cbn; [|auto]. constructor; [|auto]. intros C. apply Nq.
      apply in_map_iff in C as [y [Ey Hy]]. apply filter_In in Hy as [Hy _]. apply in_map_iff. exists y. auto.
    - apply seq_NoDup.
    - intros a. rewrite in_seq. split.
      + intros Ha. apply in_map_iff in Ha as [[a' b] [Ea Ha]]. cbn in Ea. subst a'. apply filter_In in Ha as [Ha Id].
        cbn in Id. apply id_eqb_eq in Id. apply Qi in Ha as [Ha Lb].
        destruct (Pair _ _ Ha) as [Lab [l1 [t1 [t2 [[ma [Ma [Oa _]]] _]]]]].
        assert (tk ms a = g_tok ma) as Eta by (apply (mat_tk ms a ma Ma)).
        rewrite Eta, Etk in Id. destruct (Inv a ma Ma Oa Id) as [Epa Etok].
        destruct (open_block rows a ma Ma Oa) as [base' [Ea' [La' _]]]. rewrite Etok in La'. fold N in La'.
        assert (La : exists y, y < N /\ a = base + y) by (exists (g_idx ma); auto).
        destruct (Nat.lt_trichotomy (g_idx ma) x) as [C|[C|C]]; [| |lia].
        * exfalso. pose proof (After _ _ Ha La) as Af.
          assert (Oa' : opened ms l t a) by (rewrite Epa; apply Blo; lia).
          destruct (Lifo l t a b i Ha Oa' Oi) as [j' [Lj' Hj']]; [lia|].
          assert (j' = j) by (exact (once_j i j' j Hj' Hij)). lia.
        * exfalso. assert (Ai : a = i) by lia. rewrite Ai in Ha. assert (b = j) by (exact (once_j i b j Ha Hij)). lia.
      + intros [A B]. assert (La : exists y, y < N /\ i = base + y) by (exists x; auto).
        pose proof (After _ _ Hij La) as Af.
        assert (Oa : opened ms l t a) by (replace a with (base + (a - base)) by lia; apply Blo; lia).
        destruct (Lifo l t i j a Hij Oi Oa) as [b [Lb Hb]]; [lia|].
        apply in_map_iff. exists (a, b). split; [reflexivity|]. apply filter_In. split; [apply Qi; auto|].
        cbn. apply id_eqb_eq. rewrite Etk.
        assert (Ma : mat ms a (mkM (g_layer m) (g_tok m) true (a - base))).
        { unfold mat, ms. replace a with (base + (a - base)) at 1 by lia. apply Blk. lia. }
        rewrite (mat_tk ms a _ Ma). reflexivity. }
  unfold num_of. rewrite Cnt, Etk. fold N. lia.
Qed.

Lemma numbers_all Q R : P = Q ++ R ->
  number_pairs (map tkp Q) (map tkp R) = map (fun p => (Z.of_nat (S (g_idx (nth (fst p) ms dm))), tkp p)) R.
Proof.
  revert Q. induction R as [|[i j] R IH]; intros Q E; [reflexivity|]. cbn [map number_pairs]. f_equal.
  - f_equal. cbn. eapply number_is_index; eassumption.
  - replace (map tkp Q ++ [tkp (i, j)]) with (map tkp (Q ++ [(i, j)])) by (now rewrite map_app).
    apply IH. now rewrite <- app_assoc.
Qed.
End Numbers.
