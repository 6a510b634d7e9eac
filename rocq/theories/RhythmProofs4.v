(** The clock theorem for texts. *)
From Verif Require Import PyStr PyStrProofs RecipModel LayoutModel TextModel SpineModel SpineProofs LinkProofs.
From Verif Require Import RhythmModel RhythmProofs RhythmProofs2 RhythmProofs3.
From Coq Require Import QArith FinFun.
Local Close Scope Q_scope.

(** ** Track starts of a file without added spines *)
Lemma adjust_token_starts ln dt si i t nxt s s' :
  adjust_token ln dt si i t nxt s = Some s' -> t <> S_ "*+" -> last_start_pending (a_tracks s) = false ->
  trackStarts (a_tracks s') = trackStarts (a_tracks s).
Proof.
  intros H N L. unfold adjust_token in H. pose proof (kind_spec t) as K. destruct (kind t); try contradiction.
  - injection H as <-. reflexivity.
  - injection H as <-. reflexivity.
  - destruct nxt as [t'|]; [|discriminate]. destruct (isExchange t'); [|discriminate]. injection H as <-. reflexivity.
  - injection H as <-. reflexivity.
  - rewrite L in H. discriminate.
  - injection H as <-. reflexivity.
Qed.

Lemma adjust_loop_starts ln dt si : forall toks i s s',
  adjust_loop ln dt si toks i s = Some s' -> ~ In (S_ "*+") toks -> last_start_pending (a_tracks s) = false ->
  trackStarts (a_tracks s') = trackStarts (a_tracks s).
Proof.
  induction toks as [|t rest IH]; intros i s s' H N L; cbn [adjust_loop] in H; [injection H as <-; reflexivity|].
  assert (Nt : t <> S_ "*+") by (intros ->; apply N; left; reflexivity).
  assert (Nr : ~ In (S_ "*+") rest) by (intros X; apply N; right; exact X).
  destruct (a_skip s); [apply IH in H; auto|].
  set (inrun := (0 <? a_merge s) && isMerge t) in *.
  set (mc := if inrun then S (a_merge s) else a_merge s) in *.
  destruct (inrun && negb _); [apply IH in H; auto|].
  assert (TK : forall s1 s2, trackStarts (a_tracks s1) = trackStarts (a_tracks s) ->
     adjust_token ln dt si i t (hd_error rest) s1 = Some s2 -> adjust_loop ln dt si rest (S i) s2 = Some s' ->
     trackStarts (a_tracks s') = trackStarts (a_tracks s)).
  { intros s1 s2 E A B.
    assert (L1 : last_start_pending (a_tracks s1) = false) by (unfold last_start_pending in *; rewrite E; exact L).
    pose proof (adjust_token_starts _ _ _ _ _ _ _ _ A Nt L1) as E2.
    assert (L2 : last_start_pending (a_tracks s2) = false) by (unfold last_start_pending in *; rewrite E2, E; exact L).
    apply IH in B; auto. rewrite B, E2. exact E. }
  destruct ((0 <? mc) && _).
  - destruct (mc =? 1); [discriminate|]. destruct (getMergedSpineInfo si _ _) as [lab|]; [|discriminate].
    destruct (isMerge t); [apply IH in H; auto|].
    destruct (adjust_token _ _ _ _ _ _ _) as [s2|] eqn:A in H; [|discriminate]. eapply TK; [|exact A|exact H]. reflexivity.
  - destruct (adjust_token _ _ _ _ _ _ _) as [s2|] eqn:A in H; [|discriminate]. eapply TK; [|exact A|exact H]. reflexivity.
Qed.

Definition no_added_spines (lines : list str) : Prop := forall l, In l (spined lines) -> ~ In (S_ "*+") (tokens l).

Lemma spine_lines_starts : forall ls ln st infos fin,
  spine_lines ln ls st = Some (infos, fin) -> no_added_spines ls -> last_start_pending (s_tracks st) = false ->
  trackStarts (s_tracks fin) = trackStarts (s_tracks st).
Proof.
  induction ls as [|l ls IH]; intros ln st infos fin H N L; cbn [spine_lines] in H; [injection H as <- <-; reflexivity|].
  destruct (isGlobalLine l) eqn:G.
  - apply (IH _ _ _ _ H); [|exact L]. intros x Hx. apply N. rewrite spined_cons_global by exact G. exact Hx.
  - destruct (spine_line ln (tokens l) st) as [st'|] eqn:SL; [|discriminate].
    destruct (spine_lines (S ln) ls st') as [[infos' fin']|] eqn:R; [|discriminate]. injection H as <- <-.
    assert (E : trackStarts (s_tracks st') = trackStarts (s_tracks st)).
    { unfold spine_line in SL. destruct (negb _); [discriminate|].
      destruct (existsb isManipulatorToken (tokens l)); [|injection SL as <-; reflexivity].
      unfold adjustSpines in SL. destruct (adjust_loop _ _ _ _ _ _) as [s|] eqn:A; [|discriminate]. injection SL as <-.
      cbn [s_tracks]. apply adjust_loop_starts in A; auto.
      apply N. rewrite spined_cons by exact G. left. reflexivity. }
    rewrite <- E. apply (IH _ _ _ _ R).
    + intros x Hx. apply N. rewrite spined_cons by exact G. right. exact Hx.
    + unfold last_start_pending in *. rewrite E. exact L.
Qed.

Lemma init_tracks_starts ln : forall toks j tr, last_start_pending tr = false ->
  trackStarts (init_tracks ln j toks tr) = trackStarts tr ++ map (fun k => Some (ln, k)) (seq j (length toks)) /\
  last_start_pending (init_tracks ln j toks tr) = false.
Proof.
  induction toks as [|t toks IH]; intros j tr L; cbn [init_tracks length seq map]; [rewrite app_nil_r; auto|].
  unfold addToTrackStarts. rewrite L.
  destruct (IH (S j) (mkTracks (trackStarts tr ++ [Some (ln, j)]) (trackEnds tr ++ [[]]))) as [A B].
  { unfold last_start_pending. cbn [trackStarts]. rewrite last_last. apply andb_false_r. }
  split; [|exact B]. etransitivity; [exact A|]. cbn [trackStarts]. rewrite <- app_assoc. reflexivity.
Qed.

Lemma analyzeSpines_starts lines infos fin : analyzeSpines lines = Some (infos, fin) -> no_added_spines lines ->
  exists ln n l, trackStarts (s_tracks fin) = None :: map (fun k => Some (ln, k)) (seq 0 n) /\
    nth_error lines ln = Some l /\ n = length (tokens l) /\
    (forall k x, k < ln -> nth_error lines k = Some x -> hasSpines x = false).
Proof.
  unfold analyzeSpines. intros H N.
  enough (G : forall ls ln, analyzeSpines_from ln ls = Some (infos, fin) -> no_added_spines ls ->
     exists k n l, trackStarts (s_tracks fin) = None :: map (fun j => Some (ln + k, j)) (seq 0 n) /\
       nth_error ls k = Some l /\ n = length (tokens l) /\
       (forall j x, j < k -> nth_error ls j = Some x -> hasSpines x = false)).
  { destruct (G _ _ H N) as (k & n & l & A & B). exists k, n, l. auto. }
  clear H N. induction ls as [|l ls IH]; intros ln H N; [discriminate|]. cbn [analyzeSpines_from] in H.
  destruct (isGlobalLine l) eqn:G.
  - destruct (IH _ H) as (k & n & l' & A & B & C & D).
    { intros x Hx. apply N. rewrite spined_cons_global by exact G. exact Hx. }
    exists (S k), n, l'. replace (ln + S k) with (S ln + k) by lia. split; [exact A|]. split; [exact B|]. split; [exact C|].
    intros [|j] x Hj Hx; [injection Hx as <-; unfold hasSpines; rewrite G; reflexivity|]. apply (D j); [lia|exact Hx].
  - destruct (isExclusiveLine l); [|discriminate].
    destruct (spine_lines (S ln) ls (init_state ln (tokens l))) as [[infos' fin']|] eqn:R; [|discriminate].
    injection H as _ <-.
    destruct (init_tracks_starts ln (tokens l) 0 (mkTracks [None] [[]]) eq_refl) as [A B].
    apply spine_lines_starts in R.
    + exists 0, (length (tokens l)), l. rewrite Nat.add_0_r. rewrite R. cbn [init_state s_tracks]. split; [exact A|].
      split; [reflexivity|]. split; [reflexivity|]. intros j x Hj. lia.
    + intros x Hx. apply N. rewrite spined_cons by exact G. right. exact Hx.
    + exact B.
Qed.

(** ** Tokens of a file *)
Definition token_at (lines : list str) (t : tokref) : Prop :=
  exists l, nth_error lines (fst t) = Some l /\ hasSpines l = true /\ snd t < length (tokens l).

Lemma nth_error_nth_default {A} (l : list A) n x d : nth_error l n = Some x -> nth n l d = x.
Proof. intros H. apply nth_error_nth. exact H. Qed.

Lemma nth_error_map_seq {A} (g : nat -> A) n k : k < n -> nth_error (map g (seq 0 n)) k = Some (g k).
Proof.
  intros H. rewrite nth_error_map.
  assert (E : nth_error (seq 0 n) k = Some k).
  { rewrite (nth_error_nth' _ 0) by (rewrite seq_length; exact H). rewrite seq_nth by exact H. reflexivity. }
  rewrite E. reflexivity.
Qed.

Section Text.
  Variables (lines : list str) (infos : list (list str)) (fin : sstate) (g : graph).
  Hypothesis HS : analyzeSpines lines = Some (infos, fin).
  Hypothesis HL : analyzeLinks lines = Fine g.
  Let f := rhythm_view lines infos fin g.
  Let dt := data_type lines infos (s_tracks fin).

  Lemma view_length : length (rf_lines f) = length lines.
  Proof. unfold f, rhythm_view. cbn [rf_lines]. rewrite map_length, seq_length. reflexivity. Qed.

  Lemma view_forward : forward_links f.
  Proof.
    intros t n H. cbn [f rhythm_view rf_next] in H. apply (analyzeLinks_exact _ _ HL) in H.
    destruct H as (p & q & links & (A & B & _ & _ & E & _) & _). rewrite view_length. split; [exact E|].
    eapply nth_error_lt. exact B.
  Qed.

  (** The duration of a token with one. *)
  Lemma view_dur t : (0 <= rf_dur f t)%Q ->
    isDataToken (token_text lines t) = true /\ isNullToken (token_text lines t) = false /\ rhythmic (dt t) = true.
  Proof.
    cbn [f rhythm_view rf_dur]. fold (dt t). unfold analyzeDuration.
    destruct (isDataToken (token_text lines t)); cbn [negb orb];
      [|intros H; exfalso; apply (Qle_not_lt _ _ H); reflexivity].
    destruct (isNullToken (token_text lines t)); cbn [orb];
      [intros H; exfalso; apply (Qle_not_lt _ _ H); reflexivity|].
    destruct (rhythmic (dt t)); cbn [negb]; [auto|].
    intros H; exfalso; apply (Qle_not_lt _ _ H); reflexivity.
  Qed.

  Hypothesis NA : no_added_spines lines.
  Hypothesis TD : forall l u, In l lines -> In (S_ "*-") (tokens l) -> In u (tokens l) -> isDataToken u = false.

  Lemma starts_known : exists ln n l, tl (rf_starts f) = map (fun k => Some (ln, k)) (seq 0 n) /\
    nth_error lines ln = Some l /\ n = length (tokens l) /\
    (forall k x, k < ln -> nth_error lines k = Some x -> hasSpines x = false).
  Proof.
    destruct (analyzeSpines_starts _ _ _ HS NA) as (ln & n & l & A & B). exists ln, n, l.
    cbn [f rhythm_view rf_starts]. rewrite A. auto.
  Qed.

  Lemma flat_map_some (l : list nat) ln :
    flat_map (fun o : option tokref => match o with Some t => [t] | None => [] end) (map (fun k => Some (ln, k)) l) =
    map (fun k => (ln, k)) l.
  Proof. induction l as [|x l IH]; cbn; [reflexivity|]. rewrite IH. reflexivity. Qed.

  (** Tokens reached from the spine starts are tokens of the file. *)
  Lemma reached_range t : reached f (rhythmic_starts f) t ->
    exists l, nth_error lines (fst t) = Some l /\ snd t < length (tokens l).
  Proof.
    intros R. destruct R as [t H|p t _ H].
    - destruct starts_known as (ln & n & l & A & B & C & _). unfold rhythmic_starts in H. rewrite A, flat_map_some in H.
      apply filter_In in H. destruct H as [H _]. apply in_map_iff in H. destruct H as (k & <- & H).
      apply in_seq in H. exists l. cbn [fst snd]. split; [exact B|lia].
    - cbn [f rhythm_view rf_next] in H. apply (analyzeLinks_exact _ _ HL) in H.
      destruct H as (p' & q & links & (_ & B & _) & ST & I). exists q. split; [exact B|].
      eapply stitch_in_range; eassumption.
  Qed.

  Theorem text_clock starts durs : analyzeRhythm f = RhythmOk starts durs ->
    exists clock : tokref -> Q,
      (forall t, In t (rhythmic_starts f) -> (clock t == 0)%Q) /\
      (forall t, reached f (rhythmic_starts f) t -> ~ In t (rhythmic_starts f) ->
         exists p, reached f (rhythmic_starts f) p /\ In t (nextTokens g p) /\
           (clock t == clock p + Qmax 0 (rf_dur f p))%Q) /\
      (forall t, reached f (rhythmic_starts f) t -> (0 <= rf_dur f t)%Q -> (nth (fst t) starts (-1) == clock t)%Q).
  Proof.
    intros H. destruct starts_known as (ln & n & l & A & B & C & D).
    assert (RG : forall t, reached f (rhythmic_starts f) t -> (0 <= rf_dur f t)%Q ->
       exists l, nth_error lines (fst t) = Some l /\ snd t < length (tokens l) /\
         isDataToken (token_text lines t) = true /\ isNullToken (token_text lines t) = false /\ rhythmic (dt t) = true /\
         In (token_text lines t) (tokens l)).
    { intros t R P. destruct (reached_range t R) as (x & X1 & X2). destruct (view_dur t P) as (Y1 & Y2 & Y3).
      assert (E2 : nth (fst t) lines [] = x) by (apply nth_error_nth_default; exact X1).
      exists x. split; [exact X1|]. split; [exact X2|]. split; [exact Y1|]. split; [exact Y2|]. split; [exact Y3|].
      unfold token_text. rewrite E2. apply nth_In. exact X2. }
    apply (clock f view_forward starts durs H).
    - intros t Ht. rewrite A in Ht. apply in_map_iff in Ht. destruct Ht as (k & [= <-] & _).
      cbn [fst]. rewrite view_length. eapply nth_error_lt. exact B.
    - intros t p Ht I. rewrite A in Ht. apply in_map_iff in Ht. destruct Ht as (k & [= <-] & _).
      cbn [f rhythm_view rf_next] in I. apply (analyzeLinks_exact _ _ HL) in I.
      destruct I as (p' & q & links & (P1 & _ & P3 & _ & P5 & _) & _). cbn [fst] in P5.
      rewrite (D _ _ P5 P1) in P3. discriminate.
    - intros t u Ht Hu. rewrite A in Ht, Hu. apply in_map_iff in Ht, Hu.
      destruct Ht as (k & [= <-] & _), Hu as (k' & [= <-] & _). reflexivity.
    - rewrite A, flat_map_some. apply FinFun.Injective_map_NoDup; [intros x y [= E]; exact E|apply seq_NoDup].
    - intros t R P (j & J). destruct (RG t R P) as (x & X1 & X2 & Y1 & _ & _ & Y4).
      cbn [f rhythm_view rf_term] in J. apply str_eqb_eq in J. unfold token_text in J. cbn [fst snd] in J.
      assert (E2 : nth (fst t) lines [] = x) by (apply nth_error_nth_default; exact X1). rewrite E2 in J.
      assert (IJ : In (S_ "*-") (tokens x)).
      { rewrite <- J. apply nth_In. destruct (le_lt_dec (length (tokens x)) j) as [G|G]; [|exact G].
        rewrite nth_overflow in J by exact G. discriminate. }
      rewrite (TD x _ (nth_error_In _ _ X1) IJ Y4) in Y1. discriminate.
    - intros t l' P E R. destruct (RG t R P) as (x & X1 & X2 & Y1 & Y2 & Y3 & Y4).
      cbn [f rhythm_view rf_lines] in E. rewrite nth_error_map_seq in E by (eapply nth_error_lt; exact X1).
      assert (E2 : nth (fst t) lines [] = x) by (apply nth_error_nth_default; exact X1).
      injection E as <-. rewrite E2. cbn [line_view l_allnull].
      apply andb_false_iff. right. apply not_true_iff_false. intros X. rewrite forallb_forall in X.
      specialize (X (snd t)). rewrite in_seq in X. specialize (X ltac:(lia)). fold dt in X.
      rewrite <- surjective_pairing in X. rewrite Y2, Y3 in X. discriminate.
  Qed.
End Text.

(** Along a path all of whose tokens after the first have a single predecessor,
    start times advance by durations. *)
Inductive path (g : graph) : tokref -> list tokref -> tokref -> Prop :=
| path_end t : path g t [] t
| path_step t n l u : In n (nextTokens g t) -> previousTokens g n = [t] -> path g n l u -> path g t (t :: l) u.

Lemma path_clock (g : graph) (dur : tokref -> Q) (clock : tokref -> Q) :
  (forall t n, In n (nextTokens g t) -> previousTokens g n = [t] -> (clock n == clock t + Qmax 0 (dur t))%Q) ->
  forall t l u, path g t l u -> (clock u == clock t + qsum (map (fun x => Qmax 0 (dur x)) l))%Q.
Proof.
  intros H t l u P. induction P as [t|t n l u A B P IH]; cbn [map qsum]; [ring|].
  rewrite IH, (H t n A B). ring.
Qed.
