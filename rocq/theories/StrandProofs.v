(** Lemmas about strands. *)
From Coq Require Import Lia Permutation Sorted.
From Verif Require Import PyStr PyStrProofs LayoutModel TextModel SpineModel SpineProofs SpineProofs2 LinkProofs BarModel RhythmModel StrandModel.

(** ** Strands in any graph of tokens *)

Lemma flat_map_ext_in {A B} (f g : A -> list B) l : (forall x, In x l -> f x = g x) -> flat_map f l = flat_map g l.
Proof. induction l as [|x l IH]; intros E; [reflexivity|]. cbn. rewrite E by (left; reflexivity). f_equal. apply IH. intros y I. apply E. right. exact I. Qed.

(** A strand stops at this token: a terminator, or a merge that leaves the strand to the
    spine on its left. *)
Definition ends (F : sfile) (t : tokref) : bool :=
  if is_v F t && (1 <? sf_sub F t)%Z then left_is_v F t else is_end F t.

(** The tokens of the strand that starts at [f]. *)
Inductive on_path (F : sfile) (f : tokref) : tokref -> Prop :=
| path_first : on_path F f f
| path_next t u : on_path F f t -> ends F t = false -> next0 F t = Some u -> on_path F f u.

(** What the links have to look like: they lead downwards; but for those of tokens that end
    a strand, at most one leads to a token and none to a start; a merge has one successor. *)
Record forest (F : sfile) (starts : list tokref) : Prop := mkForest {
  down : forall t u, In u (sf_next F t) -> fst t < fst u < sf_lines F;
  one_source : forall t t' j j' u, nth_error (sf_next F t) j = Some u -> nth_error (sf_next F t') j' = Some u ->
    ends F t = false -> ends F t' = false -> t = t' /\ j = j';
  fresh : forall s t, In s starts -> In s (sf_next F t) -> ends F t = true;
  distinct : NoDup starts;
  inside : forall s, In s starts -> fst s < sf_lines F;
  merge_one : forall t, is_v F t = true -> tl (sf_next F t) = []
}.

Section Abstract.
Variable F : sfile.
Variable starts : list tokref.
Hypothesis H : forest F starts.
Local Notation N := (sf_lines F).

(** Any descent that does not go through the end of a strand. *)
Inductive tree (s : tokref) : tokref -> Prop :=
| tree_refl : tree s s
| tree_step t u : tree s t -> ends F t = false -> In u (sf_next F t) -> tree s u.

Lemma tree_trans a b c : tree a b -> tree b c -> tree a c.
Proof. intros A B. induction B; [exact A|]. econstructor; eauto. Qed.
Lemma tree_child t u x : ends F t = false -> In u (sf_next F t) -> tree u x -> tree t x.
Proof. intros E I T. apply (tree_trans t u x); [|exact T]. econstructor; [apply tree_refl|exact E|exact I]. Qed.
Lemma tree_line a b : tree a b -> a = b \/ fst a < fst b.
Proof.
  induction 1 as [|t u T IH E I]; [left; reflexivity|]. right. apply (down F starts H) in I. destruct IH as [->|]; lia.
Qed.
Lemma tree_inside a b : fst a < N -> tree a b -> fst b < N.
Proof. intros L T. destruct T as [|t u T E I]; [exact L|]. apply (down F starts H) in I. lia. Qed.
Lemma path_tree a b : on_path F a b -> tree a b.
Proof.
  induction 1 as [|t u P IH E X]; [apply tree_refl|]. econstructor; [exact IH|exact E|]. unfold next0 in X. destruct (sf_next F t); [discriminate|]. injection X as ->. left. reflexivity.
Qed.
(** A token has one parent. *)
Lemma one_parent t t' u : In u (sf_next F t) -> In u (sf_next F t') -> ends F t = false -> ends F t' = false -> t = t'.
Proof.
  intros I I' E E'. apply In_nth_error in I. apply In_nth_error in I'. destruct I as (j & I), I' as (j' & I'). apply (one_source F starts H _ _ _ _ _ I I' E E').
Qed.
Lemma tree_linear a b x : tree a x -> tree b x -> tree a b \/ tree b a.
Proof.
  intros A. revert b. induction A as [|t u T IH E I]; intros b B; [right; exact B|].
  destruct B as [|t' u T' E' I'].
  - left. econstructor; eassumption.
  - assert (t = t') as <- by (eapply one_parent; eassumption). apply IH. exact T'.
Qed.
Lemma siblings_apart t a b x : ends F t = false -> In a (sf_next F t) -> In b (sf_next F t) -> tree a x -> tree b x -> a = b.
Proof.
  intros E A B TA TB.
  assert (G : forall a b, In a (sf_next F t) -> In b (sf_next F t) -> tree a b -> a = b).
  { clear -H E. intros a b A B T. destruct T as [|p u T EP I]; [reflexivity|]. exfalso. assert (p = t) as -> by (eapply one_parent; eassumption).
    apply tree_line in T. apply (down F starts H) in A. destruct T as [->|]; lia. }
  destruct (tree_linear a b x TA TB) as [T|T]; [apply G|symmetry; apply G]; assumption.
Qed.
Lemma starts_apart a b x : In a starts -> In b starts -> tree a x -> tree b x -> a = b.
Proof.
  intros A B TA TB.
  assert (G : forall a b, In b starts -> tree a b -> a = b).
  { clear -H. intros a b B T. destruct T as [|p u T EP I]; [reflexivity|]. exfalso. apply (fresh F starts H) in I; [congruence|exact B]. }
  destruct (tree_linear a b x TA TB) as [T|T]; [apply G|symmetry; apply G]; assumption.
Qed.
Lemma next_nodup t : ends F t = false -> NoDup (sf_next F t).
Proof.
  intros E. apply NoDup_nth_error. intros i j L X. destruct (nth_error (sf_next F t) i) as [u|] eqn:I; [|apply nth_error_Some in L; contradiction].
  apply (one_source F starts H t t i j u); auto.
Qed.

(** *** The walk *)

Definition go_on (fuel : nat) (t : tokref) : option tokref * list strand := match next0 F t with Some u => walk F fuel u | None => (None, []) end.
Definition branch (fuel : nat) (u : tokref) : list strand := (u, fst (walk F fuel u)) :: snd (walk F fuel u).
Lemma walk_eq fuel t : walk F (S fuel) t =
  if ends F t then (Some t, []) else (fst (go_on fuel t), flat_map (branch fuel) (tl (sf_next F t)) ++ snd (go_on fuel t)).
Proof.
  assert (FE : flat_map (fun u => let '(l, ks) := walk F fuel u in (u, l) :: ks) (tl (sf_next F t)) = flat_map (branch fuel) (tl (sf_next F t))).
  { apply flat_map_ext. intros u. unfold branch. destruct (walk F fuel u); reflexivity. }
  unfold ends. cbn [walk]. fold (go_on fuel t). rewrite FE. clear FE. destruct (is_v F t && (1 <? sf_sub F t)%Z) eqn:V; [|destruct (is_end F t); reflexivity].
  destruct (left_is_v F t); [reflexivity|]. apply andb_prop in V. destruct V as (V & _). rewrite (merge_one F starts H t V). cbn [flat_map app]. destruct (go_on fuel t); reflexivity.
Qed.

Lemma next0_in t u : next0 F t = Some u -> In u (sf_next F t).
Proof. unfold next0. destruct (sf_next F t); [discriminate|]. intros E. injection E as ->. left. reflexivity. Qed.
Lemma next0_down t u : next0 F t = Some u -> fst t < fst u < N.
Proof. intros E. apply (down F starts H). apply next0_in. exact E. Qed.
Lemma tl_in t u : In u (tl (sf_next F t)) -> In u (sf_next F t).
Proof. destruct (sf_next F t); [intros []|]. cbn. auto. Qed.

(** Enough rounds are enough. *)
Lemma walk_fuel fuel : forall fuel' t, fst t < N -> N <= fst t + fuel -> N <= fst t + fuel' -> walk F fuel t = walk F fuel' t.
Proof.
  induction fuel as [|f IH]; intros fuel' t L A B; [lia|]. destruct fuel' as [|f']; [lia|]. rewrite !walk_eq. destruct (ends F t); [reflexivity|].
  assert (G : go_on f t = go_on f' t).
  { unfold go_on. destruct (next0 F t) as [u|] eqn:E; [|reflexivity]. apply next0_down in E. apply IH; lia. }
  rewrite G. f_equal. f_equal. apply flat_map_ext_in. intros u I. apply tl_in in I. apply (down F starts H) in I.  unfold branch. rewrite (IH f' u) by lia. reflexivity.
Qed.
Definition whole (t : tokref) : option tokref * list strand := walk F (S N) t.
Lemma walk_whole fuel t : fst t < N -> N <= fst t + fuel -> walk F fuel t = whole t.
Proof. intros L A. apply walk_fuel; lia. Qed.
Lemma whole_eq t : fst t < N -> whole t =
  if ends F t then (Some t, []) else
    (match next0 F t with Some u => fst (whole u) | None => None end,
     flat_map (fun u => (u, fst (whole u)) :: snd (whole u)) (tl (sf_next F t)) ++ match next0 F t with Some u => snd (whole u) | None => [] end).
Proof.
  intros L. unfold whole at 1. rewrite walk_eq. destruct (ends F t); [reflexivity|]. f_equal.
  - unfold go_on. destruct (next0 F t) as [u|] eqn:E; [|reflexivity]. apply next0_down in E. rewrite (walk_whole N u) by lia. reflexivity.
  - f_equal.
    + apply flat_map_ext_in. intros u I. apply tl_in in I. apply (down F starts H) in I.  unfold branch. rewrite (walk_whole N u) by lia. reflexivity.
    + unfold go_on. destruct (next0 F t) as [u|] eqn:E; [|reflexivity]. apply next0_down in E. rewrite (walk_whole N u) by lia. reflexivity.
Qed.
(** Induction from the bottom of the file. *)
Lemma upwards (P : tokref -> Prop) : (forall t, fst t < N -> (forall u, fst t < fst u < N -> P u) -> P t) -> forall t, fst t < N -> P t.
Proof.
  intros S1. assert (G : forall n t, fst t < N -> N <= fst t + n -> P t); [|intros t L; apply (G N); lia].
  induction n as [|n IH]; intros t L A; [lia|]. apply S1; [exact L|]. intros u U. apply IH; lia.
Qed.

Lemma path_left t u x : ends F t = false -> next0 F t = Some u -> on_path F u x -> on_path F t x.
Proof. intros E X P. induction P as [|p q P IH EP XP]; [econstructor; [apply path_first|exact E|exact X]|econstructor; eassumption]. Qed.
Lemma path_trans a b c : on_path F a b -> on_path F b c -> on_path F a c.
Proof. intros A B. induction B; [exact A|econstructor; eassumption]. Qed.

Lemma whole_last t : fst t < N ->
  match fst (whole t) with
  | Some e => on_path F t e /\ ends F e = true
  | None => exists z, on_path F t z /\ ends F z = false /\ next0 F z = None
  end.
Proof.
  revert t. apply upwards. intros t L IH. rewrite (whole_eq t L). destruct (ends F t) eqn:E; cbn [fst]; [split; [apply path_first|exact E]|].
  destruct (next0 F t) as [u|] eqn:X; [|exists t; split; [apply path_first|auto]]. pose proof (next0_down t u X) as D. specialize (IH u D).
  destruct (fst (whole u)) as [e|].
  - destruct IH as (P & EE). split; [|exact EE]. eapply path_left; eassumption.
  - destruct IH as (z & P & EZ & NZ). exists z. split; [|auto]. eapply path_left; eassumption.
Qed.

Lemma kids_in t : fst t < N -> forall u l, In (u, l) (snd (whole t)) <-> l = fst (whole u) /\ exists p, tree t p /\ ends F p = false /\ In u (tl (sf_next F p)).
Proof.
  revert t. apply (upwards (fun t => forall u l, In (u, l) (snd (whole t)) <-> l = fst (whole u) /\ exists p, tree t p /\ ends F p = false /\ In u (tl (sf_next F p)))).
  intros t L IH u l. rewrite (whole_eq t L). destruct (ends F t) eqn:E; cbn [snd].
  - split; [intros []|]. intros (_ & p & T & EP & _). assert (p = t); [|congruence]. clear -T E. induction T as [|q r T IH EQ I]; [reflexivity|]. specialize (IH). subst. congruence.
  - rewrite in_app_iff, in_flat_map. split.
    + intros [(c & IC & [X|X])|X].
      * injection X as <- <-. split; [reflexivity|]. exists t. split; [apply tree_refl|]. auto.
      * pose proof (down F starts H _ _ (tl_in _ _ IC)) as D. apply (IH c D) in X. destruct X as (-> & p & T & EP & IP). split; [reflexivity|]. exists p. split; [|auto].
        apply (tree_child t c); auto using tl_in.
      * destruct (next0 F t) as [c|] eqn:XC; [|contradiction]. pose proof (next0_down t c XC) as D. apply (IH c D) in X. destruct X as (-> & p & T & EP & IP). split; [reflexivity|]. exists p. split; [|auto].
        apply (tree_child t c); auto using next0_in.
    + intros (-> & p & T & EP & IP).
      assert (C : p = t \/ exists c, In c (sf_next F t) /\ tree c p).
      { clear -T. induction T as [|q r T IH EQ I]; [left; reflexivity|]. right. destruct IH as [->|(c & IC & TC)]; [exists r; split; [exact I|apply tree_refl]|exists c; split; [exact IC|econstructor; eassumption]]. }
      destruct C as [->|(c & IC & TC)]; [left; exists u; split; [exact IP|left; reflexivity]|].
      pose proof (down F starts H _ _ IC) as D. unfold next0. destruct (sf_next F t) as [|c0 r]; [contradiction|]. cbn [tl hd_error]. destruct IC as [->|IC].
      * right. apply (IH c D). split; [reflexivity|]. exists p. auto.
      * left. exists c. split; [exact IC|]. right. apply (IH c D). split; [reflexivity|]. exists p. auto.
Qed.

Lemma kids_first t u : fst t < N -> In u (map fst (snd (whole t))) <-> exists p, tree t p /\ ends F p = false /\ In u (tl (sf_next F p)).
Proof.
  intros L. rewrite in_map_iff. split.
  - intros ([u' l] & <- & I). apply (kids_in t L) in I. destruct I as (_ & X). exact X.
  - intros X. exists (u, fst (whole u)). split; [reflexivity|]. apply (kids_in t L). auto.
Qed.
Lemma kids_below t u : fst t < N -> In u (map fst (snd (whole t))) -> tree t u /\ fst t < fst u.
Proof.
  intros L I. apply (kids_first t u L) in I. destruct I as (p & T & E & I). apply tl_in in I. split; [econstructor; eassumption|].
  apply (down F starts H) in I. apply tree_line in T. destruct T as [->|]; lia.
Qed.

Lemma NoDup_app_intro {A} (a b : list A) : NoDup a -> NoDup b -> (forall x, In x a -> In x b -> False) -> NoDup (a ++ b).
Proof.
  induction 1 as [|x a NI ND IH]; intros NB D; [exact NB|]. cbn. constructor; [|apply IH; [exact NB|intros y I; apply D; right; exact I]].
  intros I. apply in_app_iff in I. destruct I as [I|I]; [contradiction|]. apply (D x); [left; reflexivity|exact I].
Qed.
Lemma nodup_flat_map {A B} (h : A -> list B) l : NoDup l -> (forall x, In x l -> NoDup (h x)) -> (forall x y b, In x l -> In y l -> In b (h x) -> In b (h y) -> x = y) -> NoDup (flat_map h l).
Proof.
  induction 1 as [|x l NI ND IH]; intros HN HD; [constructor|]. cbn [flat_map]. apply NoDup_app_intro.
  - apply HN. left. reflexivity.
  - apply IH; [intros y I; apply HN; right; exact I|]. intros y z b Y Z. apply HD; right; assumption.
  - intros b B1 B2. apply in_flat_map in B2. destruct B2 as (y & Y & B2). assert (x = y) by (apply (HD x y b); [left; reflexivity|right; exact Y|exact B1|exact B2]). subst. contradiction.
Qed.

Lemma kids_nodup t : fst t < N -> NoDup (map fst (snd (whole t))).
Proof.
  revert t. apply upwards. intros t L IH. rewrite (whole_eq t L). destruct (ends F t) eqn:E; cbn [snd]; [constructor|].
  rewrite map_app, flat_map_concat_map, concat_map, map_map, <- flat_map_concat_map. cbn [map fst].
  assert (ND := next_nodup t E).
  assert (D : forall u, In u (sf_next F t) -> fst t < fst u < N) by (intros u; apply (down F starts H)).
  assert (SA : forall a b x, In a (sf_next F t) -> In b (sf_next F t) -> tree a x -> tree b x -> a = b) by (intros a b x; apply siblings_apart; exact E).
  assert (B : forall u x, fst t < fst u < N -> In x (u :: map fst (snd (whole u))) -> tree u x).
  { intros u x U [<-|I]; [apply tree_refl|]. apply kids_below in I; [apply I|apply U]. }
  apply NoDup_app_intro.
  - apply nodup_flat_map.
    + destruct (sf_next F t) as [|c r]; [constructor|]. inversion ND. assumption.
    + intros u I. apply tl_in in I. specialize (D u I). constructor; [|apply IH; exact D]. intros X. apply kids_below in X; lia.
    + intros a b x A C X Y. apply tl_in in A. apply tl_in in C. apply (SA a b x); auto.
  - destruct (next0 F t) as [u|] eqn:X; [|constructor]. apply IH. apply next0_down. exact X.
  - intros x X Y. apply in_flat_map in X. destruct X as (u & U & X).
    destruct (next0 F t) as [c|] eqn:XC; [|contradiction]. assert (C := next0_in t c XC).
    assert (u = c) as ->.
    { apply (SA u c x); auto using tl_in. apply kids_below in Y; [apply Y|apply D; exact C]. }
    unfold next0 in XC. destruct (sf_next F t) as [|c0 r]; [discriminate|]. injection XC as ->. inversion ND. contradiction.
Qed.

(** *** All strands *)

Definition spine_strands (s : tokref) : list strand := (s, fst (whole s)) :: snd (whole s).
Lemma analyzeSpineStrands_eq s : analyzeSpineStrands F s = spine_strands s.
Proof. unfold analyzeSpineStrands, spine_strands, whole. destruct (walk F (S N) s). reflexivity. Qed.
Definition all_strands : list strand := flat_map spine_strands starts.

Lemma insert_perm x l : Permutation (insert_strand x l) (x :: l).
Proof.
  induction l as [|y r IH]; [reflexivity|]. cbn [insert_strand]. destruct (first_le x y); [reflexivity|]. rewrite IH. apply perm_swap.
Qed.
Lemma sort_perm l : Permutation (sort_strands l) l.
Proof. induction l as [|x l IH]; [reflexivity|]. cbn [sort_strands fold_right]. rewrite insert_perm. apply perm_skip. exact IH. Qed.
Lemma analyzeStrands_perm : exists l, analyzeStrands F (map Some starts) = Some l /\ Permutation l all_strands.
Proof.
  unfold analyzeStrands, all_strands. clear H. induction starts as [|s r IH]; [exists []; split; reflexivity|].
  cbn [map strand_lists]. destruct IH as (l & E & P). destruct (strand_lists F (map Some r)) as [ls|]; [|discriminate]. injection E as <-.
  exists (sort_strands (analyzeSpineStrands F s) ++ concat ls). split; [reflexivity|]. rewrite sort_perm, analyzeSpineStrands_eq. cbn [flat_map]. apply Permutation_app_head. exact P.
Qed.

Lemma strand_in f l : In (f, l) all_strands <-> l = fst (whole f) /\ (In f starts \/ exists s p, In s starts /\ tree s p /\ ends F p = false /\ In f (tl (sf_next F p))).
Proof.
  unfold all_strands. rewrite in_flat_map. split.
  - intros (s & I & [X|X]); [injection X as <- <-; auto|]. apply (kids_in s (inside F starts H s I)) in X. destruct X as (-> & p & X). split; [reflexivity|]. right. exists s, p. tauto.
  - intros (-> & [I|(s & p & I & X)]); [exists f; split; [exact I|left; reflexivity]|]. exists s. split; [exact I|]. right. apply (kids_in s (inside F starts H s I)). split; [reflexivity|]. exists p. exact X.
Qed.
Lemma firsts_tree f l : In (f, l) all_strands -> exists s, In s starts /\ tree s f /\ fst f < N.
Proof.
  intros I. apply strand_in in I. destruct I as (_ & [I|(s & p & I & T & E & X)]); [exists f; split; [exact I|split; [apply tree_refl|apply (inside F starts H); exact I]]|].
  assert (T' : tree s f) by (econstructor; [exact T|exact E|apply tl_in; exact X]). exists s. split; [exact I|]. split; [exact T'|]. eapply tree_inside; [apply (inside F starts H); exact I|exact T'].
Qed.
Lemma firsts_nodup : NoDup (map fst all_strands).
Proof.
  unfold all_strands. rewrite flat_map_concat_map, concat_map, map_map, <- flat_map_concat_map.
  assert (B : forall u x, In u starts -> In x (map fst (spine_strands u)) -> tree u x).
  { intros u x U I. unfold spine_strands in I. destruct I as [<-|I]; [apply tree_refl|]. apply kids_below in I; [apply I|apply (inside F starts H); exact U]. }
  apply nodup_flat_map; [apply (distinct F starts H)| |].
  - intros s I. pose proof (inside F starts H s I) as L. unfold spine_strands. cbn [map fst]. constructor; [|apply kids_nodup; exact L]. intros X. apply kids_below in X; lia.
  - intros a b x A C X Y. apply (starts_apart a b x); auto.
Qed.
(** What is reached from a start is on a strand. *)
Lemma tree_strand s u : In s starts -> tree s u -> exists f l, In (f, l) all_strands /\ on_path F f u.
Proof.
  intros S1 T. induction T as [|t u T IH E I]; [exists s, (fst (whole s)); split; [apply strand_in; auto|apply path_first]|].
  destruct IH as (f & l & FI & P). destruct (next0 F t) as [c|] eqn:X; [|unfold next0 in X; destruct (sf_next F t); [contradiction|discriminate]].
  destruct (sf_next F t) as [|c0 r] eqn:NT; [contradiction|]. unfold next0 in X. rewrite NT in X. injection X as ->. destruct I as [->|I].
  - exists f, l. split; [exact FI|]. econstructor; [exact P|exact E|]. unfold next0. rewrite NT. reflexivity.
  - exists u, (fst (whole u)). split; [|apply path_first]. apply strand_in. split; [reflexivity|]. right. exists s, t. rewrite NT. auto.
Qed.
(** A token is on one strand. *)
Lemma strand_unique f f' l l' u : In (f, l) all_strands -> In (f', l') all_strands -> on_path F f u -> on_path F f' u -> f = f'.
Proof.
  intros A B P P'. assert (G : forall f f' l l', In (f, l) all_strands -> In (f', l') all_strands -> on_path F f f' -> f = f').
  { clear -H. intros f f' l l' A B P. destruct P as [|t u P E X]; [reflexivity|]. exfalso.
    apply strand_in in B. destruct B as (_ & [B|(s & p & S1 & T & EP & I)]).
    - apply next0_in in X. apply (fresh F starts H u t B) in X. congruence.
    - unfold next0 in X. destruct (sf_next F t) as [|c r] eqn:NT; [discriminate|]. injection X as ->. apply In_nth_error in I. destruct I as (j & I).
      assert (J : nth_error (sf_next F p) (S j) = Some u) by (destruct (sf_next F p); [destruct j; discriminate|exact I]).
      destruct (one_source F starts H t p 0 (S j) u) as (_ & Z); [rewrite NT; reflexivity|exact J|exact E|exact EP|discriminate]. }
  assert (C : on_path F f f' \/ on_path F f' f).
  { clear -H P P'. induction P as [|t u P IH E X]; [right; exact P'|]. inversion P' as [EQ|t' u' Q' E' X' EQ]; subst.
    - left. econstructor; eassumption.
    - assert (t' = t) as -> by (eapply one_parent; [apply next0_in; exact X'|apply next0_in; exact X|exact E'|exact E]). apply IH. exact Q'. }
  destruct C as [C|C]; [eapply G; [exact A|exact B|exact C]|symmetry; eapply G; [exact B|exact A|exact C]].
Qed.

(** *** Strand numbers *)

(** Following first successors, also through the ends of strands. *)
Inductive flows (a : tokref) : tokref -> Prop :=
| flows_refl : flows a a
| flows_next t u : flows a t -> next0 F t = Some u -> flows a u.
Lemma flows_left a b x : next0 F a = Some b -> flows b x -> flows a x.
Proof. intros E. induction 1 as [|t u Q IH X]; [econstructor; [apply flows_refl|exact E]|econstructor; eassumption]. Qed.
Lemma flows_cases a x : flows a x <-> x = a \/ exists b, next0 F a = Some b /\ flows b x.
Proof.
  split.
  - induction 1 as [|t u Q IH X]; [left; reflexivity|]. right. destruct IH as [->|(b & E & IH)]; [exists u; split; [exact X|apply flows_refl]|exists b; split; [exact E|econstructor; eassumption]].
  - intros [->|(b & E & Q)]; [apply flows_refl|eapply flows_left; eassumption].
Qed.
Lemma chain_in fuel : forall t x, fst t < N -> N <= fst t + fuel -> In x (chain F fuel t) <-> flows t x.
Proof.
  induction fuel as [|f IH]; intros t x L A; [lia|]. cbn [chain]. rewrite flows_cases. cbn [In]. destruct (next0 F t) as [u|] eqn:E.
  - pose proof (next0_down t u E) as D. rewrite IH by lia. split; [intros [<-|Q]; [auto|right; exists u; auto]|intros [->|(b & EB & Q)]; [auto|right; congruence]].
  - split; [intros [<-|[]]; auto|intros [->|(b & EB & Q)]; [auto|discriminate]].
Qed.
(** Up to the end of a strand the two agree. *)
Lemma flows_path f x : flows f x -> on_path F f x \/ exists e, on_path F f e /\ ends F e = true /\ e <> x /\ flows e x.
Proof.
  induction 1 as [|t u Q IH X]; [left; apply path_first|]. destruct IH as [P|(e & P & E & NE & Q')].
  - destruct (ends F t) eqn:E; [|left; econstructor; eassumption]. right. exists t. split; [exact P|]. split; [exact E|]. split; [|econstructor; [apply flows_refl|exact X]].
    intros ->. apply next0_down in X. lia.
  - right. exists e. split; [exact P|]. split; [exact E|]. split; [|econstructor; eassumption]. intros ->.
    apply next0_down in X. clear -X Q' H. assert (G : forall a b, flows a b -> fst a <= fst b); [|apply G in Q'; lia].
    induction 1 as [|p q Q IH Y]; [lia|]. apply next0_down in Y. lia.
Qed.
Lemma path_flows f x : on_path F f x -> flows f x.
Proof. induction 1; econstructor; eassumption. Qed.
Lemma assign_spec l : forall i m x, (forall s, In s l -> fst (fst s) < N) ->
  assign_from F i l m x = match find (fun k => match nth_error l k with Some s => existsb (ref_eqb x) (chain F (S N) (fst s)) | None => false end) (rev (seq 0 (length l))) with
                          | Some k => Some (i + k)
                          | None => m x
                          end.
Proof.
  induction l as [|s l IH]; intros i m x I; [reflexivity|]. cbn [assign_from]. rewrite IH by (intros y Y; apply I; right; exact Y).
  cbn [length seq rev]. rewrite <- seq_shift, <- map_rev.
  assert (FA : forall {A} (p : A -> bool) a b, find p (a ++ b) = match find p a with Some y => Some y | None => find p b end).
  { clear. intros A p a b. induction a as [|y a IH]; [reflexivity|]. cbn. destruct (p y); [reflexivity|exact IH]. }
  assert (FM : forall (p : nat -> bool) a, find p (map S a) = match find (fun k => p (S k)) a with Some y => Some (S y) | None => None end).
  { clear. intros p a. induction a as [|y a IH]; [reflexivity|]. cbn. destruct (p (S y)); [reflexivity|exact IH]. }
  rewrite FA, FM. cbn [nth_error]. match goal with |- context [find ?p (rev (seq 0 (length l)))] => destruct (find p (rev (seq 0 (length l)))) as [k|]; [f_equal; lia|] end.
  destruct s as [f e]. cbn [find nth_error fst]. unfold set_all. destruct (existsb (ref_eqb x) (chain F (S N) f)); [f_equal; lia|reflexivity].
Qed.
Lemma strandIndex_path l i f e x : Permutation l all_strands -> nth_error l i = Some (f, e) -> on_path F f x ->
  (forall s g, In s starts -> tree s g -> ends F g = true -> g <> x -> ~ flows g x) -> strandIndex F l x = Some i.
Proof.
  intros P I O NF. assert (IN : forall s, In s l -> fst (fst s) < N).
  { intros [a b] J. eapply Permutation_in in J; [|exact P]. apply firsts_tree in J. destruct J as (_ & _ & _ & L). exact L. }
  unfold strandIndex. rewrite assign_spec by exact IN.
  assert (K : forall k s, nth_error l k = Some s -> existsb (ref_eqb x) (chain F (S N) (fst s)) = true <-> k = i).
  { intros k [a b] KS. assert (L : fst a < N) by (apply (IN (a, b)); eapply nth_error_In; exact KS). cbn [fst]. rewrite existsb_exists. split.
    - intros (y & Y & E). apply ref_eqb_eq in E. subst y. apply chain_in in Y; [|exact L|lia]. destruct (flows_path a x Y) as [PA|(g & PG & EG & NG & QG)].
      + assert (a = f). { eapply strand_unique; [eapply Permutation_in; [exact P|eapply nth_error_In; exact KS]|eapply Permutation_in; [exact P|eapply nth_error_In; exact I]|exact PA|exact O]. }
        subst a. assert (ND : NoDup (map fst l)) by (eapply Permutation_NoDup; [apply Permutation_map; symmetry; exact P|apply firsts_nodup]).
        rewrite NoDup_nth_error in ND. apply ND; [rewrite map_length; eapply nth_error_Some; intros Z; unfold strand in *; congruence|]. exact (eq_trans (map_nth_error fst _ _ KS) (eq_sym (map_nth_error fst _ _ I))).
      + exfalso. assert (J : In (a, b) all_strands) by (eapply Permutation_in; [exact P|eapply nth_error_In; exact KS]). apply firsts_tree in J. destruct J as (s & S1 & T & _).
        apply (NF s g S1); auto. eapply tree_trans; [exact T|]. apply path_tree. exact PG.
    - intros ->. rewrite I in KS. injection KS as <- <-. exists x. split; [|apply ref_eqb_refl]. apply chain_in; [exact L|lia|]. apply path_flows. exact O. }
  match goal with |- context [find ?q ?r] => destruct (find q r) as [k|] eqn:FE end.
  - apply find_some in FE. destruct FE as (_ & FE). cbn beta in FE.
    match type of FE with context [@nth_error ?T l k] => destruct (@nth_error T l k) as [s|] eqn:KS; [|discriminate] end. apply (K k s KS) in FE. subst. reflexivity.
  - exfalso. assert (J : In i (rev (seq 0 (length l)))). { rewrite <- in_rev. apply in_seq. split; [lia|]. cbn. eapply nth_error_Some. intros Z. unfold strand in *. congruence. }
    pose proof (find_none _ _ FE i J) as Z. cbn beta in Z. assert (T := proj2 (K i (f, e) I) eq_refl).
    match type of Z with context [@nth_error ?T l i] => replace (@nth_error T l i) with (Some (f, e)) in Z by (symmetry; exact I) end. cbn [fst] in T, Z. congruence.
Qed.

(** *** Null tokens *)

(** The tokens of a strand before its end. *)
Fixpoint body (fuel : nat) (t : tokref) : list tokref :=
  match fuel with
  | O => []
  | S f => if ends F t then [] else t :: match next0 F t with Some u => body f u | None => [] end
  end.
Lemma body_fuel fuel : forall fuel' t, fst t < N -> N <= fst t + fuel -> N <= fst t + fuel' -> body fuel t = body fuel' t.
Proof.
  induction fuel as [|f IH]; intros fuel' t L A B; [lia|]. destruct fuel' as [|f']; [lia|]. cbn [body]. destruct (ends F t); [reflexivity|]. f_equal.
  destruct (next0 F t) as [u|] eqn:E; [|reflexivity]. apply next0_down in E. apply IH; lia.
Qed.
Definition tokens_of (t : tokref) : list tokref := body (S N) t.
Lemma tokens_eq t : fst t < N -> tokens_of t = if ends F t then [] else t :: match next0 F t with Some u => tokens_of u | None => [] end.
Proof.
  intros L. unfold tokens_of at 1. cbn [body]. destruct (ends F t); [reflexivity|]. f_equal. destruct (next0 F t) as [u|] eqn:E; [|reflexivity].
  apply next0_down in E. apply body_fuel; lia.
Qed.
Lemma path_cases f x : on_path F f x <-> x = f \/ (ends F f = false /\ exists u, next0 F f = Some u /\ on_path F u x).
Proof.
  split.
  - induction 1 as [|t u Q IH E X]; [left; reflexivity|]. right. destruct IH as [->|(EF & b & NB & IH)]; [split; [exact E|exists u; split; [exact X|apply path_first]]|].
    split; [exact EF|]. exists b. split; [exact NB|]. econstructor; eassumption.
  - intros [->|(E & u & X & P)]; [apply path_first|eapply path_left; eassumption].
Qed.
Lemma tokens_in t : fst t < N -> forall x, In x (tokens_of t) <-> on_path F t x /\ ends F x = false.
Proof.
  revert t. apply (upwards (fun t => forall x, In x (tokens_of t) <-> on_path F t x /\ ends F x = false)). intros t L IH x. rewrite (tokens_eq t L), path_cases. destruct (ends F t) eqn:E.
  - split; [intros []|]. intros ([->|(Z & _)] & EX); congruence.
  - cbn [In]. destruct (next0 F t) as [u|] eqn:X.
    + pose proof (next0_down t u X) as D. rewrite (IH u D). split.
      * intros [<-|(P & EX)]; [auto|]. split; [|exact EX]. right. split; [reflexivity|]. exists u. auto.
      * intros ([->|(_ & b & NB & P)] & EX); [auto|]. right. injection NB as <-. auto.
    + split; [intros [<-|[]]; auto|]. intros ([->|(_ & b & NB & P)] & EX); [auto|discriminate].
Qed.
Lemma path_line a b : on_path F a b -> a = b \/ fst a < fst b.
Proof. intros P. apply tree_line, path_tree, P. Qed.
Lemma resolve_strand_eq fuel : forall t s, fst t < N -> N <= fst t + fuel ->
  resolve_strand F (S fuel) (Some t) (fst (whole t)) s = Some (fold_left (fun s x => resolve_token F x s) (tokens_of t) s).
Proof.
  induction fuel as [|f IH]; intros t s L A; [lia|]. cbn [resolve_strand].
  destruct (ends F t) eqn:E.
  - rewrite (whole_eq t L), (tokens_eq t L), E. cbn [fst same_token]. rewrite ref_eqb_refl. reflexivity.
  - assert (SF : same_token (Some t) (fst (whole t)) = false).
    { pose proof (whole_last t L) as W. destruct (fst (whole t)) as [e|]; [|reflexivity]. cbn. apply ref_eqb_neq. intros ->. destruct W. congruence. }
    rewrite SF. rewrite (whole_eq t L), (tokens_eq t L), E. cbn [fst fold_left]. destruct (next0 F t) as [u|] eqn:X.
    + pose proof (next0_down t u X) as D. specialize (IH u (resolve_token F t s) ltac:(lia) ltac:(lia)). cbn [resolve_strand] in IH. cbn [resolve_strand]. exact IH.
    + reflexivity.
Qed.
(** All tokens in the order in which they are resolved. *)
Definition reading (l : list strand) : list tokref := flat_map (fun s => tokens_of (fst s)) l.
Lemma resolve_all l : (forall s, In s l -> In s all_strands) -> forall s0, resolve_strands F l s0 = Some (fold_left (fun s x => resolve_token F x s) (reading l) s0).
Proof.
  induction l as [|[f e] l IH]; intros I s0; [reflexivity|]. cbn [resolve_strands reading flat_map fst]. rewrite fold_left_app.
  assert (IF : In (f, e) all_strands) by (apply I; left; reflexivity). pose proof (firsts_tree f e IF) as (s & _ & _ & L). apply strand_in in IF. destruct IF as (-> & _).
  rewrite resolve_strand_eq by lia. apply IH. intros y Y. apply I. right. exact Y.
Qed.
Lemma tokens_nodup t : fst t < N -> NoDup (tokens_of t).
Proof.
  revert t. apply upwards. intros t L IH. rewrite (tokens_eq t L). destruct (ends F t) eqn:E; [constructor|]. destruct (next0 F t) as [u|] eqn:X; [|constructor; [intros []|constructor]].
  pose proof (next0_down t u X) as D. constructor; [|apply IH; exact D]. intros I. apply tokens_in in I; [|apply D]. destruct I as (P & _). apply path_line in P. destruct P as [->|]; lia.
Qed.
Lemma reading_nodup l : Permutation l all_strands -> NoDup (reading l).
Proof.
  intros P. assert (ND : NoDup (map fst l)) by (eapply Permutation_NoDup; [apply Permutation_map; symmetry; exact P|apply firsts_nodup]).
  assert (I : forall s, In s l -> In s all_strands) by (intros s; apply Permutation_in; exact P). clear P. unfold reading.
  replace (flat_map (fun s => tokens_of (fst s)) l) with (flat_map tokens_of (map fst l)) by (clear; induction l as [|y r IH]; [reflexivity|cbn; rewrite IH; reflexivity]).
  assert (L : forall f, In f (map fst l) -> fst f < N /\ exists e, In (f, e) all_strands).
  { intros f J. apply in_map_iff in J. destruct J as ([f' e] & <- & J). apply I in J. cbn. pose proof (firsts_tree f' e J) as (s & _ & _ & K). split; [exact K|]. exists e. exact J. }
  apply nodup_flat_map; [exact ND| |].
  - intros f J. apply tokens_nodup. apply L. exact J.
  - intros f g x J K X Y. destruct (L f J) as (LF & e & EF), (L g K) as (LG & e' & EG). apply tokens_in in X; [|exact LF]. apply tokens_in in Y; [|exact LG].
    eapply strand_unique; [exact EF|exact EG|apply X|apply Y].
Qed.

(** A data token other than the null token. *)
Definition sounding (t : tokref) : Prop := isDataToken (sf_text F t) = true /\ isNullToken (sf_text F t) = false.
Definition null_data (t : tokref) : Prop := isDataToken (sf_text F t) = true /\ isNullToken (sf_text F t) = true.

Lemma resolve_data_keep B : forall s d, n_data s = Some d -> (forall x, In x B -> ~ sounding x) -> n_data (fold_left (fun s x => resolve_token F x s) B s) = Some d.
Proof.
  induction B as [|x B IH]; intros s d E NS; [exact E|]. cbn [fold_left]. apply IH; [|intros y Y; apply NS; right; exact Y].
  unfold resolve_token. destruct (isDataToken (sf_text F x)) eqn:DT; [|exact E]. rewrite E. destruct (isNullToken (sf_text F x)) eqn:NT; [reflexivity|].
  exfalso. apply (NS x); [left; reflexivity|]. split; assumption.
Qed.
Lemma resolve_res_keep B : forall s x, ~ In x B -> n_res (fold_left (fun s x => resolve_token F x s) B s) x = n_res s x.
Proof.
  induction B as [|y B IH]; intros s x NI; [reflexivity|]. cbn [fold_left]. rewrite IH by (intros I; apply NI; right; exact I).
  assert (NE : ref_eqb x y = false) by (apply ref_eqb_neq; intros ->; apply NI; left; reflexivity).
  unfold resolve_token. destruct (isDataToken (sf_text F y)); [|reflexivity]. destruct (n_data s); [destruct (isNullToken (sf_text F y))|]; cbn [n_res]; unfold set_res; rewrite ?NE; reflexivity.
Qed.
Lemma resolve_after A d B t C s0 : sounding d -> null_data t -> (forall x, In x B -> ~ sounding x) -> ~ In t C ->
  n_res (fold_left (fun s x => resolve_token F x s) (A ++ d :: B ++ t :: C) s0) t = Some d.
Proof.
  intros (D1 & D2) (T1 & T2) NS NI. rewrite fold_left_app. cbn [fold_left]. rewrite fold_left_app. cbn [fold_left]. rewrite resolve_res_keep by exact NI.
  set (s1 := fold_left _ A s0). set (s2 := resolve_token F d s1).
  assert (E2 : n_data s2 = Some d) by (unfold s2, resolve_token; rewrite D1; destruct (n_data s1); [rewrite D2|]; reflexivity).
  pose proof (resolve_data_keep B s2 d E2 NS) as E3. unfold resolve_token at 1. rewrite T1, E3, T2. cbn [n_res]. unfold set_res. rewrite ref_eqb_refl. reflexivity.
Qed.
(** A sounding token is its own resolution. *)
Lemma resolve_self B : forall s t, ~ null_data t -> (n_res s t = None \/ n_res s t = Some t) ->
  let r := n_res (fold_left (fun s x => resolve_token F x s) B s) t in r = None \/ r = Some t.
Proof.
  induction B as [|x B IH]; intros s t NT E; [exact E|]. cbn [fold_left]. apply IH; [exact NT|].
  unfold resolve_token. destruct (isDataToken (sf_text F x)) eqn:DX; [|exact E]. destruct (n_data s) as [d|].
  - destruct (isNullToken (sf_text F x)) eqn:NX; [|exact E]. cbn [n_res]. unfold set_res. destruct (ref_eqb t x) eqn:TX; [|exact E]. apply ref_eqb_eq in TX. subst. exfalso. apply NT. split; assumption.
  - cbn [n_res]. unfold set_res. destruct (ref_eqb t x) eqn:TX; [|exact E]. apply ref_eqb_eq in TX. subst. right. reflexivity.
Qed.
Lemma tokens_split f d : fst f < N -> on_path F f d -> exists pre, tokens_of f = pre ++ tokens_of d /\ forall x, In x pre -> on_path F f x /\ on_path F x d /\ x <> d.
Proof.
  intros L P. revert L. induction P as [|t u P IH E X]; intros L; [exists []; split; [reflexivity|intros x []]|].
  destruct (IH L) as (pre & EQ & IN). pose proof (next0_down t u X) as D. assert (LT : fst t < N) by lia.
  exists (pre ++ [t]). rewrite (tokens_eq t LT), E, X in EQ. split; [rewrite EQ, <- app_assoc; reflexivity|].
  intros x I. apply in_app_iff in I. destruct I as [I|[<-|[]]].
  - destruct (IN x I) as (A & B & C). split; [exact A|]. split; [econstructor; eassumption|]. intros ->. apply path_line in B. destruct B as [->|]; [congruence|lia].
  - split; [exact P|]. split; [econstructor; [apply path_first|exact E|exact X]|]. intros ->. lia.
Qed.
Lemma data_not_end t : isDataToken (sf_text F t) = true -> ends F t = false.
Proof.
  intros D. unfold ends, is_v, is_end. destruct (str_eqb (sf_text F t) (S_ "*v")) eqn:V; [apply str_eqb_eq in V; rewrite V in D; discriminate|]. cbn [andb].
  destruct (str_eqb (sf_text F t) (S_ "*-")) eqn:V2; [apply str_eqb_eq in V2; rewrite V2 in D; discriminate|reflexivity].
Qed.
(** A null token of a strand stands for the last sounding token above it. *)
Lemma null_in_strand l f e d t : Permutation l all_strands -> In (f, e) l -> on_path F f d -> on_path F d t -> sounding d -> null_data t ->
  (forall x, on_path F d x -> on_path F x t -> x <> d -> x <> t -> ~ sounding x) ->
  exists m, resolveNullTokens F l = Some m /\ nullResolution m t = d.
Proof.
  intros P I PD PT SD NT BT. assert (IA : forall s, In s l -> In s all_strands) by (intros s; apply Permutation_in; exact P).
  unfold resolveNullTokens. rewrite (resolve_all l IA). eexists. split; [reflexivity|]. unfold nullResolution.
  apply in_split in I. destruct I as (l1 & l2 & EL).
  pose proof (firsts_tree f e (IA (f, e) ltac:(rewrite EL; apply in_elt))) as (s & S1 & T & L).
  assert (ND := reading_nodup l P). unfold reading in *. rewrite EL in *. rewrite flat_map_app in *. cbn [flat_map fst] in *.
  destruct (tokens_split f d L PD) as (pre & E1 & _).
  assert (LD : fst d < N) by (eapply tree_inside; [exact L|apply path_tree; exact PD]).
  assert (ED := data_not_end d (proj1 SD)). assert (ET := data_not_end t (proj1 NT)).
  assert (DT : d <> t) by (intros ->; destruct SD, NT; congruence).
  apply path_cases in PT as PT'. destruct PT' as [->|(_ & u & X & PU)]; [congruence|].
  pose proof (next0_down d u X) as DU. assert (LU : fst u < N) by lia.
  destruct (tokens_split u t LU PU) as (mid & E2 & IN).
  assert (LT : fst t < N) by (eapply tree_inside; [exact LU|apply path_tree; exact PU]).
  rewrite (tokens_eq d LD), ED, X, E2, (tokens_eq t LT), ET in E1.
  set (rest := match next0 F t with Some u => tokens_of u | None => [] end) in *.
  set (a := flat_map _ l1) in *. set (b := flat_map _ l2) in *.
  assert (EQ : a ++ tokens_of f ++ b = (a ++ pre) ++ d :: mid ++ t :: (rest ++ b)).
  { rewrite E1. rewrite <- !app_assoc. cbn [app]. rewrite <- app_assoc. reflexivity. }
  rewrite EQ in *. rewrite resolve_after; [reflexivity|exact SD|exact NT| |].
  - intros x IX. destruct (IN x IX) as (A & B & C). apply BT; [eapply path_left; eassumption|exact B| |exact C]. intros ->. apply path_line in A. destruct A as [->|]; lia.
  - intros IT. rewrite app_comm_cons, app_assoc in ND. apply NoDup_remove_2 in ND. apply ND. apply in_or_app. right. exact IT.
Qed.
(** Resolution never fails, and a token that is not a null data token stands for itself. *)
Lemma others_themselves l t : Permutation l all_strands -> ~ null_data t -> exists m, resolveNullTokens F l = Some m /\ nullResolution m t = t.
Proof.
  intros P NT. assert (IA : forall s, In s l -> In s all_strands) by (intros s; apply Permutation_in; exact P).
  unfold resolveNullTokens. rewrite (resolve_all l IA). eexists. split; [reflexivity|]. unfold nullResolution.
  destruct (resolve_self (reading l) (mkN None (fun _ => None)) t NT (or_introl eq_refl)) as [E|E]; cbn beta zeta in E; rewrite E; reflexivity.
Qed.

(** *** Layout comments *)

Definition bstep (st : option tokref * (tokref -> list tokref)) (t : tokref) : option tokref * (tokref -> list tokref) :=
  if takes_layout (sf_text F t) then (Some t, snd st)
  else if is_layout (sf_text F t) then (fst st, match fst st with Some u => add_linked F u t (snd st) | None => snd st end)
  else st.
Lemma back_eq fuel f t d m : back F (S fuel) f t d m =
  if ref_eqb t f then snd (bstep (d, m) t) else match prev0 F t with Some u => back F fuel f u (fst (bstep (d, m) t)) (snd (bstep (d, m) t)) | None => snd (bstep (d, m) t) end.
Proof.
  cbn [back]. unfold bstep. cbn [fst snd]. destruct (takes_layout (sf_text F t)); [reflexivity|]. destruct (is_layout (sf_text F t)); [destruct d; reflexivity|reflexivity].
Qed.
(** The first predecessor of the next token of a strand is the token itself. *)
Hypothesis HB : forall t u, ends F t = false -> next0 F t = Some u -> prev0 F u = Some t.
Lemma path_forward f x e : on_path F f x -> on_path F f e -> on_path F x e \/ on_path F e x.
Proof.
  intros P. revert e. induction P as [|t u P IH E X]; intros e Q; [left; exact Q|]. destruct (IH e Q) as [A|A].
  - apply path_cases in A. destruct A as [->|(_ & b & NB & A)]; [right; econstructor; [apply path_first|exact E|exact X]|]. left. congruence.
  - right. econstructor; eassumption.
Qed.
Lemma path_antisym a b : on_path F a b -> on_path F b a -> a = b.
Proof. intros A B. apply path_line in A. apply path_line in B. destruct A as [|], B as [|]; auto; lia. Qed.
(** The tokens of a strand down to a token, in order, and the walk back over them. *)
Inductive ordered : list tokref -> Prop :=
| ord_nil : ordered []
| ord_cons x l : ordered l -> (forall y, In y l -> on_path F x y /\ x <> y) -> ordered (x :: l).
Lemma ordered_snoc l u : ordered l -> (forall y, In y l -> on_path F y u /\ y <> u) -> ordered (l ++ [u]).
Proof.
  induction 1 as [|x l O IH B]; intros A; cbn; [constructor; [constructor|intros y []]|]. constructor; [apply IH; intros y Y; apply A; right; exact Y|].
  intros y Y. apply in_app_iff in Y. destruct Y as [Y|[<-|[]]]; [apply B; exact Y|apply A; left; reflexivity].
Qed.
Lemma back_path f t : on_path F f t -> exists l, ordered l /\ (forall x, In x l <-> on_path F f x /\ on_path F x t) /\
  forall fuel d m, fst t < fst f + fuel -> back F fuel f t d m = snd (fold_left bstep (rev l) (d, m)).
Proof.
  induction 1 as [|t u P IH E X].
  - exists [f]. split; [constructor; [constructor|intros y []]|]. split.
    + intros x. split; [intros [<-|[]]; split; apply path_first|]. intros (A & B). left. apply path_antisym; assumption.
    + intros fuel d m L. destruct fuel as [|k]; [lia|]. rewrite back_eq, ref_eqb_refl. reflexivity.
  - destruct IH as (l & O & IN & BK). exists (l ++ [u]).
    assert (TU : on_path F t u) by (econstructor; [apply path_first|exact E|exact X]).
    assert (BU : forall y, In y l -> on_path F y u /\ y <> u).
    { intros y Y. apply IN in Y. destruct Y as (A & B). split; [eapply path_trans; eassumption|]. intros ->. apply next0_down in X. apply path_line in B. destruct B as [->|]; lia. }
    split; [apply ordered_snoc; assumption|]. split.
    + intros x. rewrite in_app_iff. cbn [In]. split.
      * intros [Y|[<-|[]]]; [split; [apply IN in Y; apply Y|apply BU; exact Y]|]. split; [eapply path_trans; eassumption|apply path_first].
      * intros (A & B). inversion B as [EQ|p q Q EP XP EQ]; subst; [right; left; reflexivity|]. left. apply IN. split; [exact A|].
        assert (p = t) as -> by (eapply one_parent; [apply next0_in; exact XP|apply next0_in; exact X|exact EP|exact E]). exact Q.
    + intros fuel d m L. destruct fuel as [|k]; [exfalso; apply path_line in P; apply next0_down in X; destruct P as [->|]; lia|].
      rewrite back_eq, rev_app_distr. cbn [rev app fold_left]. pose proof (next0_down t u X) as D.
      assert (NE : ref_eqb u f = false). { apply ref_eqb_neq. intros ->. apply path_line in P. destruct P as [->|]; lia. }
      rewrite NE, (HB t u E X), BK by lia. destruct (bstep (d, m) u). reflexivity.
Qed.

(** One comment into the list of its token. *)
Definition not_ignored (c : tokref) : Prop := contains (S_ ":ignore") (sf_text F c) = false.
Definition by_line (a b : tokref) : Prop := fst a <= fst b.
Lemma insert_by_line_in c l x : In x (insert_by_line c l) <-> x = c \/ In x l.
Proof.
  induction l as [|y r IH]; [cbn; intuition|]. cbn [insert_by_line]. destruct (fst c <? fst y); cbn [In] in *; [intuition|]. rewrite IH. intuition.
Qed.
Lemma insert_by_line_sorted c l : StronglySorted by_line l -> StronglySorted by_line (insert_by_line c l).
Proof.
  induction 1 as [|y r O IH B]; [repeat constructor|]. cbn [insert_by_line]. destruct (Nat.ltb_spec (fst c) (fst y)) as [LT|LE].
  - constructor; [constructor; assumption|]. constructor; [unfold by_line; lia|]. eapply Forall_impl; [|exact B]. unfold by_line. intros a A. lia.
  - constructor; [exact IH|]. apply Forall_forall. intros x I. apply insert_by_line_in in I. destruct I as [->|I]; [exact LE|]. rewrite Forall_forall in B. apply B. exact I.
Qed.
Lemma add_parameters_in c l x : In x (add_parameters F c l) <-> In x l \/ (x = c /\ not_ignored c).
Proof.
  unfold add_parameters, not_ignored. destruct (contains (S_ ":ignore") (sf_text F c)); [intuition congruence|].
  destruct (existsb (ref_eqb c) l) eqn:EX.
  - apply existsb_exists in EX. destruct EX as (y & Y & E). apply ref_eqb_eq in E. subst. intuition congruence.
  - destruct l as [|y r]; [cbn; intuition|]. destruct (fst (last (y :: r) c) <=? fst c); [rewrite in_app_iff; cbn [In]; intuition|rewrite insert_by_line_in; intuition].
Qed.
Lemma add_parameters_sorted c l : StronglySorted by_line l -> StronglySorted by_line (add_parameters F c l).
Proof.
  intros O. unfold add_parameters. destruct (contains (S_ ":ignore") (sf_text F c)); [exact O|]. destruct (existsb (ref_eqb c) l); [exact O|].
  destruct l as [|y r]; [repeat constructor|]. destruct (Nat.leb_spec (fst (last (y :: r) c)) (fst c)) as [LE|]; [|apply insert_by_line_sorted; exact O].
  clear -O LE. remember (y :: r) as l. clear Heql y r. induction O as [|y r O IH B]; [repeat constructor|]. cbn [app]. destruct r as [|z r].
  - cbn in LE |- *. constructor; [repeat constructor|]. repeat constructor. exact LE.
  - constructor; [apply IH; exact LE|]. apply Forall_app. split; [exact B|]. constructor; [|constructor]. unfold by_line. rewrite Forall_forall in B.
    transitivity (fst (last (z :: r) c)); [|exact LE]. apply B. clear. generalize z. induction r as [|w r IH]; intros z0; [left; reflexivity|]. right. apply IH.
Qed.
Lemma add_parameters_nodup c l : NoDup l -> NoDup (add_parameters F c l).
Proof.
  intros O. unfold add_parameters. destruct (contains (S_ ":ignore") (sf_text F c)); [exact O|]. destruct (existsb (ref_eqb c) l) eqn:EX; [exact O|].
  assert (NI : ~ In c l). { intros I. assert (T : existsb (ref_eqb c) l = true) by (apply existsb_exists; exists c; split; [exact I|apply ref_eqb_refl]). congruence. }
  destruct l as [|y r]; [repeat constructor; intros []|]. destruct (fst (last (y :: r) c) <=? fst c).
  - eapply Permutation_NoDup; [|constructor; [exact NI|exact O]]. apply Permutation_cons_append.
  - eapply Permutation_NoDup; [|constructor; [exact NI|exact O]]. clear. generalize (y :: r). intros l. induction l as [|z l IH]; [reflexivity|]. cbn [insert_by_line].
    destruct (fst c <? fst z); [reflexivity|]. rewrite <- IH. apply perm_swap.
Qed.
Lemma layout_does_not_take t : is_layout t = true -> takes_layout t = false.
Proof.
  unfold is_layout. destruct t as [|a t]; [discriminate|]. intros L.
  assert (a = "!"%char) as ->. { cbn in L. apply andb_prop in L. destruct L as (L & _). symmetry. apply Ascii.eqb_eq. exact L. }
  reflexivity.
Qed.

(** The comments that the walk back over [l] (from below) gives to [x]. *)
Lemma bstep_in l : forall d m x c, In c (snd (fold_left bstep l (d, m)) x) <->
  In c (m x) \/ (is_layout (sf_text F c) = true /\ not_ignored c /\
    ((d = Some x /\ exists l1 l2, l = l1 ++ c :: l2 /\ forall y, In y l1 -> takes_layout (sf_text F y) = false) \/
     (takes_layout (sf_text F x) = true /\ exists l0 l1 l2, l = l0 ++ x :: l1 ++ c :: l2 /\ forall y, In y l1 -> takes_layout (sf_text F y) = false))).
Proof.
  induction l as [|t l IH]; intros d m x c; cbn [fold_left].
  - split; [auto|]. intros [I|(_ & _ & [(_ & l1 & l2 & E & _)|(_ & l0 & l1 & l2 & E & _)])]; [exact I| |]; [destruct l1; discriminate|destruct l0; discriminate].
  - destruct (bstep (d, m) t) as [d' m'] eqn:BS. rewrite IH. clear IH. unfold bstep in BS. cbn [fst snd] in BS.
    destruct (takes_layout (sf_text F t)) eqn:TT; [|destruct (is_layout (sf_text F t)) eqn:LT].
    + injection BS as <- <-. split.
      * intros [I|(L & NI & [(E & l1 & l2 & -> & B)|(T & l0 & l1 & l2 & -> & B)])]; [auto| |].
        { injection E as ->. right. split; [exact L|]. split; [exact NI|]. right. split; [exact TT|]. exists [], l1, l2. auto. }
        { right. split; [exact L|]. split; [exact NI|]. right. split; [exact T|]. exists (t :: l0), l1, l2. auto. }
      * intros [I|(L & NI & [(-> & l1 & l2 & E & B)|(T & l0 & l1 & l2 & E & B)])]; [auto| |].
        { exfalso. destruct l1 as [|z l1]; injection E as <- E; [apply layout_does_not_take in L; congruence|]. specialize (B t (or_introl eq_refl)). congruence. }
        { right. split; [exact L|]. split; [exact NI|]. destruct l0 as [|z l0]; injection E as <- ->; [left; split; [reflexivity|]; exists l1, l2; auto|]. right. split; [exact T|]. exists l0, l1, l2. auto. }
    + injection BS as <- <-.
      assert (M : In c (match d with Some u => add_linked F u t m | None => m end x) <-> In c (m x) \/ (d = Some x /\ c = t /\ not_ignored c)).
      { destruct d as [u|]; [|intuition discriminate]. unfold add_linked. destruct (ref_eqb x u) eqn:XU.
        - apply ref_eqb_eq in XU. subst. rewrite add_parameters_in. split; [intros [A|(-> & A)]; auto|intros [A|(_ & -> & A)]; auto].
        - split; [auto|]. intros [A|(A & _)]; [exact A|]. injection A as ->. rewrite ref_eqb_refl in XU. discriminate. }
      rewrite M. clear M. split.
      * intros [[I|(-> & -> & NI)]|(L & NI & [(-> & l1 & l2 & -> & B)|(T & l0 & l1 & l2 & -> & B)])]; [auto| | |].
        { right. split; [exact LT|]. split; [exact NI|]. left. split; [reflexivity|]. exists [], l. split; [reflexivity|intros y []]. }
        { right. split; [exact L|]. split; [exact NI|]. left. split; [reflexivity|]. exists (t :: l1), l2. split; [reflexivity|]. intros y [<-|Y]; auto. }
        { right. split; [exact L|]. split; [exact NI|]. right. split; [exact T|]. exists (t :: l0), l1, l2. auto. }
      * intros [I|(L & NI & [(-> & l1 & l2 & E & B)|(T & l0 & l1 & l2 & E & B)])]; [auto| |].
        { destruct l1 as [|z l1]; injection E as <- E; [left; right; auto|]. right. split; [exact L|]. split; [exact NI|]. left. split; [reflexivity|]. exists l1, l2. split; [exact E|]. intros y Y. apply B. right. exact Y. }
        { right. split; [exact L|]. split; [exact NI|]. right. split; [exact T|]. destruct l0 as [|z l0]; injection E as <- ->; [congruence|]. exists l0, l1, l2. auto. }
    + injection BS as <- <-. split.
      * intros [I|(L & NI & [(-> & l1 & l2 & -> & B)|(T & l0 & l1 & l2 & -> & B)])]; [auto| |].
        { right. split; [exact L|]. split; [exact NI|]. left. split; [reflexivity|]. exists (t :: l1), l2. split; [reflexivity|]. intros y [<-|Y]; auto. }
        { right. split; [exact L|]. split; [exact NI|]. right. split; [exact T|]. exists (t :: l0), l1, l2. auto. }
      * intros [I|(L & NI & [(-> & l1 & l2 & E & B)|(T & l0 & l1 & l2 & E & B)])]; [auto| |].
        { destruct l1 as [|z l1]; injection E as <- E; [congruence|]. right. split; [exact L|]. split; [exact NI|]. left. split; [reflexivity|]. exists l1, l2. split; [exact E|]. intros y Y. apply B. right. exact Y. }
        { right. split; [exact L|]. split; [exact NI|]. right. split; [exact T|]. destruct l0 as [|z l0]; injection E as <- ->; [congruence|]. exists l0, l1, l2. auto. }
Qed.
Lemma ordered_app a b : ordered (a ++ b) -> ordered b /\ forall x y, In x a -> In y b -> on_path F x y /\ x <> y.
Proof.
  induction a as [|z a IH]; cbn [app]; intros O; [split; [exact O|intros x y []]|]. inversion O as [|? ? O' B]; subst. destruct (IH O') as (O2 & C). split; [exact O2|].
  intros x y [<-|X] Y; [apply B; apply in_or_app; right; exact Y|]. apply C; assumption.
Qed.
Lemma ordered_in_split l c x : ordered l -> In c l -> In x l -> on_path F c x -> c <> x ->
  exists l0 l1 l2, l = l0 ++ c :: l1 ++ x :: l2.
Proof.
  intros O C X P NE. apply in_split in C. destruct C as (l0 & r & ->). destruct (ordered_app l0 (c :: r) O) as (_ & B). apply in_app_iff in X. destruct X as [X|[X|X]].
  - exfalso. destruct (B x c X (or_introl eq_refl)) as (Q & N'). apply NE. apply path_antisym; assumption.
  - congruence.
  - apply in_split in X. destruct X as (l1 & l2 & ->). exists l0, l1, l2. reflexivity.
Qed.
(** The comment [c] belongs to [x]: [x] is the first token below it, in its strand, that
    takes comments. *)
Definition comment_of (c x : tokref) : Prop :=
  is_layout (sf_text F c) = true /\ not_ignored c /\ takes_layout (sf_text F x) = true /\ on_path F c x /\ c <> x /\
  forall y, on_path F c y -> on_path F y x -> y <> c -> y <> x -> takes_layout (sf_text F y) = false.
Lemma process_in f e m x c : fst f < N -> on_path F f e -> ends F e = true ->
  In c (process_strand F m (f, Some e) x) <-> In c (m x) \/ (on_path F f c /\ comment_of c x).
Proof.
  intros L P E. unfold process_strand. cbn [fst snd]. destruct (back_path f e P) as (l & O & IN & BK).
  assert (LE : fst e < N) by (eapply tree_inside; [exact L|apply path_tree; exact P]). rewrite BK by lia. rewrite bstep_in. split.
  - intros [I|(LC & NI & [(Z & _)|(T & l0 & l1 & l2 & EQ & B)])]; [auto|discriminate|]. right.
    apply (f_equal (@rev _)) in EQ. rewrite rev_involutive, rev_app_distr in EQ. cbn [rev] in EQ. rewrite rev_app_distr in EQ. cbn [rev] in EQ. rewrite <- !app_assoc in EQ. cbn [app] in EQ.
    rewrite EQ in O. destruct (ordered_app _ _ O) as (O1 & A). inversion O1 as [|? ? O2 B1]; subst l3 x0. destruct (ordered_app _ _ O2) as (O3 & A2). 
    assert (C : In c l) by (rewrite EQ; apply in_or_app; right; left; reflexivity).
    assert (CX : on_path F c x /\ c <> x) by (apply B1; apply in_or_app; right; left; reflexivity).
    split; [apply IN in C; apply C|]. unfold comment_of. split; [exact LC|]. split; [exact NI|]. split; [exact T|]. split; [apply CX|]. split; [apply CX|].
    intros y CY YX NC NX. apply B. apply in_rev. assert (Y : In y l).
    { apply IN. split; [eapply path_trans; [apply IN in C; apply C|exact CY]|]. eapply path_trans; [exact YX|]. assert (X : In x l) by (rewrite EQ; apply in_or_app; right; right; apply in_or_app; right; left; reflexivity). apply IN in X. apply X. }
    rewrite EQ in Y. apply in_app_iff in Y. destruct Y as [Y|[Y|Y]]; [|congruence|].
    + exfalso. destruct (A y c Y (or_introl eq_refl)) as (YC & N'). apply NC. apply path_antisym; assumption.
    + apply in_app_iff in Y. destruct Y as [Y|[Y|Y]]; [exact Y|congruence|]. exfalso. inversion O3 as [|? ? O4 B4]; subst. destruct (B4 y Y) as (XY & N'). apply NX. apply path_antisym; assumption.
  - intros [I|(PC & LC & NI & T & CX & NE & B)]; [auto|]. right. split; [exact LC|]. split; [exact NI|]. right. split; [exact T|].
    assert (XE : on_path F x e).
    { destruct (path_forward f x e (path_trans f c x PC CX) P) as [A|A]; [exact A|]. apply path_cases in A. destruct A as [->|(A & _)]; [apply path_first|congruence]. }
    assert (C : In c l) by (apply IN; split; [exact PC|eapply path_trans; eassumption]).
    assert (X : In x l) by (apply IN; split; [eapply path_trans; eassumption|exact XE]).
    destruct (ordered_in_split l c x O C X CX NE) as (l0 & l1 & l2 & ->). exists (rev l2), (rev l1), (rev l0). split.
    + rewrite rev_app_distr. cbn [rev]. rewrite rev_app_distr. cbn [rev]. rewrite <- !app_assoc. reflexivity.
    + intros y Y. apply in_rev in Y. destruct (ordered_app _ _ O) as (O1 & _). inversion O1 as [|? ? O2 B1]; subst. destruct (ordered_app _ _ O2) as (_ & A2).
      destruct (B1 y (in_or_app _ _ _ (or_introl Y))) as (CY & N1). destruct (A2 y x Y (or_introl eq_refl)) as (YX & N2). apply B; auto.
Qed.
Lemma linked_in l x c : Permutation l all_strands ->
  In c (linked_parameters F l x) <-> exists f e, In (f, Some e) l /\ on_path F f c /\ comment_of c x.
Proof.
  intros P. assert (IA : forall s, In s l -> In s all_strands) by (intros s; apply Permutation_in; exact P). clear P. unfold linked_parameters.
  assert (G : forall m, In c (fold_left (process_strand F) l m x) <-> In c (m x) \/ exists f e, In (f, Some e) l /\ on_path F f c /\ comment_of c x).
  { induction l as [|[f e] l IH]; intros m; cbn [fold_left]; [split; [auto|intros [I|(f & e & [] & _)]; exact I]|].
    rewrite IH by (intros y Y; apply IA; right; exact Y). clear IH. assert (I0 := IA (f, e) (or_introl eq_refl)). destruct (firsts_tree f e I0) as (_ & _ & _ & L).
    apply strand_in in I0. destruct I0 as (EE & _). pose proof (whole_last f L) as W. rewrite <- EE in W. destruct e as [e|].
    - rewrite (process_in f e m x c L (proj1 W) (proj2 W)). split.
      + intros [[I|(A & B)]|(g & h & I & A)]; [auto|right; exists f, e; split; [left; reflexivity|auto]|right; exists g, h; split; [right; exact I|exact A]].
      + intros [I|(g & h & [Z|I] & A)]; [auto|injection Z as <- <-; auto|right; exists g, h; auto].
    - unfold process_strand. cbn [snd]. split.
      + intros [I|(g & h & I & A)]; [auto|right; exists g, h; split; [right; exact I|exact A]].
      + intros [I|(g & h & [Z|I] & A)]; [auto|discriminate|right; exists g, h; auto]. }
  rewrite G. split; [intros [[]|A]; exact A|auto].
Qed.
Lemma bstep_keeps (Q : list tokref -> Prop) : (forall c l, Q l -> Q (add_parameters F c l)) -> forall l st, (forall x, Q (snd st x)) -> forall x, Q (snd (fold_left bstep l st) x).
Proof.
  intros A. induction l as [|t l IH]; intros st B; [exact B|]. cbn [fold_left]. apply IH. unfold bstep. destruct (takes_layout (sf_text F t)); [exact B|].
  destruct (is_layout (sf_text F t)); [|exact B]. cbn [snd]. destruct (fst st) as [u|]; [|exact B]. intros x. unfold add_linked. destruct (ref_eqb x u); [apply A|]; apply B.
Qed.
Lemma linked_keeps (Q : list tokref -> Prop) l : Permutation l all_strands -> (forall c l, Q l -> Q (add_parameters F c l)) -> Q [] -> forall x, Q (linked_parameters F l x).
Proof.
  intros P A Z. assert (IA : forall s, In s l -> In s all_strands) by (intros s; apply Permutation_in; exact P). clear P. unfold linked_parameters.
  assert (G : forall m, (forall x, Q (m x)) -> forall x, Q (fold_left (process_strand F) l m x)); [|apply G; intros _; exact Z].
  induction l as [|[f e] l IH]; intros m B x; [apply B|]. cbn [fold_left]. apply IH; [intros y Y; apply IA; right; exact Y|]. clear IH x. intros x.
  assert (I0 := IA (f, e) (or_introl eq_refl)). destruct (firsts_tree f e I0) as (_ & _ & _ & L). apply strand_in in I0. destruct I0 as (EE & _). pose proof (whole_last f L) as W. rewrite <- EE in W.
  unfold process_strand. cbn [snd fst]. destruct e as [e|]; [|apply B]. destruct (back_path f e (proj1 W)) as (k & _ & _ & BK).
  assert (LE : fst e < N) by (eapply tree_inside; [exact L|apply path_tree; exact (proj1 W)]). rewrite BK by lia. apply bstep_keeps; [exact A|exact B].
Qed.
End Abstract.
