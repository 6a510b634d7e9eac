(** Lemmas about the repair of durations. *)
From Coq Require Import List Arith ZArith Lia Bool.
From Verif Require Import FixDurModel.
Import ListNotations.
Local Open Scope Z_scope.

(** *** Words of the statements *)
(** No note begins before the one before it ends. *)
Fixpoint apart (l : list note) : Prop :=
  match l with
  | a :: ((b :: _) as r) => n_off a + n_len a <= n_off b /\ apart r
  | _ => True
  end.
Definition lengths_ok (l : list note) : Prop := Forall (fun n => 0 <= n_len n) l.
Definition visible (l : list note) : list note := filter (fun n => negb (n_hidden n)) l.
(** What a note is, but for its place. *)
Definition what (n : note) := (n_id n, n_len n, n_rest n, n_looks n).
Definition starts (l : list note) : list Z := map n_off l.
Definition total (l : list Z) : Z := fold_right Z.add 0 l.
Definition components_ok (components : Z -> list Z) : Prop :=
  forall d, 0 <= d -> total (components d) = d /\ Forall (fun x => 0 <= x) (components d).
(** A measure has voices or notes of its own, not both. *)
Definition plain (m : measure) : Prop := m_voices m = [] \/ m_notes m = [].
Definition voices_of (m : measure) : list (list note) := m_notes m :: m_voices m.

(** *** Sliding *)
Lemma slide_what l : forall p, map what (slide p l) = map what l.
Proof.
  induction l as [|n l IH]; intro p; [reflexivity|]. cbn [slide map]. rewrite IH. f_equal. destruct p as [p|]; [|reflexivity]. destruct (_ <? _); reflexivity.
Qed.
Lemma slide_hidden l : forall p, map n_hidden (slide p l) = map n_hidden l.
Proof.
  induction l as [|n l IH]; intro p; [reflexivity|]. cbn [slide map]. rewrite IH. f_equal. destruct p as [p|]; [|reflexivity]. destruct (_ <? _); reflexivity.
Qed.
Lemma slide_apart_from l : forall p, match slide (Some p) l with b :: _ => n_off p + n_len p <= n_off b | [] => True end /\ apart (slide (Some p) l).
Proof.
  induction l as [|n l IH]; intro p; [split; exact Logic.I|]. cbn [slide].
  set (n' := if n_off n - n_off p <? n_len p then _ else _).
  assert (H : n_off p + n_len p <= n_off n') by (unfold n'; destruct (n_off n - n_off p <? n_len p) eqn:E; [cbn; lia|apply Z.ltb_ge in E; lia]).
  split; [exact H|]. destruct (IH n') as (A & B). cbn [apart]. destruct (slide (Some n') l); [exact Logic.I|]. split; [exact A|exact B].
Qed.
Lemma slide_apart l : apart (slide None l).
Proof.
  destruct l as [|n l]; [exact Logic.I|]. cbn [slide apart]. destruct (slide_apart_from l n) as (A & B). destruct (slide (Some n) l); [exact Logic.I|]. split; assumption.
Qed.
Lemma slide_id l : forall p, match p, l with Some p, n :: _ => n_off p + n_len p <= n_off n | _, _ => True end -> apart l -> slide p l = l.
Proof.
  induction l as [|n l IH]; intros p H A; [reflexivity|]. cbn [slide].
  assert (E : match p with None => n | Some p => if n_off n - n_off p <? n_len p then move (n_off p + n_len p) n else n end = n).
  { destruct p as [p|]; [|reflexivity]. destruct (n_off n - n_off p <? n_len p) eqn:E; [apply Z.ltb_lt in E; lia|reflexivity]. }
  rewrite E. f_equal. apply IH; destruct l; try exact Logic.I; apply A.
Qed.
Lemma slide_later l : forall p, Forall2 (fun n n' => n_off n <= n_off n') l (slide p l).
Proof.
  induction l as [|n l IH]; intro p; [constructor|]. cbn [slide]. constructor; [|apply IH]. destruct p as [p|]; [|lia]. destruct (n_off n - n_off p <? n_len p) eqn:E; [apply Z.ltb_lt in E; cbn; lia|lia].
Qed.
(** The earliest: other starts [o] without overlaps, none before the old ones, are none of
    them before the new ones. *)
Fixpoint placed (o : list Z) (l : list note) : list note :=
  match o, l with x :: o, n :: l => move x n :: placed o l | _, _ => [] end.
Lemma slide_least l : forall p o, Forall2 (fun x n => n_off n <= x) o l ->
  match p, placed o l with Some p, b :: _ => n_off p + n_len p <= n_off b | _, _ => True end -> apart (placed o l) ->
  Forall2 (fun x n' => n_off n' <= x) o (slide p l).
Proof.
  induction l as [|n l IH]; intros p o F H A; inversion F as [|x y o' l' X F' E1 E2]; clear F; [constructor|]. subst y l' o. cbn [slide placed] in *.
  set (n' := match p with None => n | Some p => if n_off n - n_off p <? n_len p then move (n_off p + n_len p) n else n end).
  assert (Y : n_off n' <= x). { unfold n'. destruct p as [p|]; [|lia]. destruct (n_off n - n_off p <? n_len p); [cbn in *; lia|lia]. }
  assert (L : n_len n' = n_len n). { unfold n'. destruct p as [p|]; [|reflexivity]. destruct (n_off n - n_off p <? n_len p); reflexivity. }
  constructor; [exact Y|]. apply IH; [exact F'| |].
  - destruct (placed o' l) as [|b r] eqn:P; [exact Logic.I|]. rewrite L. destruct A as (A & _). cbn in A. lia.
  - destruct (placed o' l); [exact Logic.I|apply A].
Qed.

(** *** Ends *)
Lemma highest_nonneg l : 0 <= highest l.
Proof. induction l as [|a l IH]; cbn [highest fold_right]; [lia|]. fold (highest l). lia. Qed.
Lemma highest_app a b : highest (a ++ b) = Z.max (highest a) (highest b).
Proof. induction a as [|n a IH]; [cbn [app]; pose proof (highest_nonneg b); change (highest []) with 0; lia|]. cbn [app highest fold_right]. fold (highest (a ++ b)) (highest a). rewrite IH. lia. Qed.
Lemma highest_space d l : 0 <= d -> highest (add_space d l) = highest l + d.
Proof. intro D. unfold add_space. rewrite highest_app. cbn. unfold n_end. cbn. pose proof (highest_nonneg l). lia. Qed.
Lemma highest_end l n : In n l -> n_end n <= highest l.
Proof. induction l as [|a l IH]; [intros []|]. cbn [highest fold_right]. fold (highest l). intros [->|I]; [lia|]. specialize (IH I). lia. Qed.
Lemma apart_snoc l n : apart l -> (forall a, In a l -> n_end a <= n_off n) -> apart (l ++ [n]).
Proof.
  induction l as [|a l IH]; intros A H; [exact Logic.I|]. destruct l as [|b l].
  - cbn. split; [|exact Logic.I]. apply (H a). left. reflexivity.
  - change (n_off a + n_len a <= n_off b /\ apart ((b :: l) ++ [n])). destruct A as (A1 & A2). split; [exact A1|]. apply IH; [exact A2|]. intros x X. apply H. right. exact X.
Qed.
Lemma apart_space d l : apart l -> apart (add_space d l).
Proof. intro A. unfold add_space. apply apart_snoc; [exact A|]. intros a I. apply highest_end. exact I. Qed.

(** *** Splitting *)
Section Split.
Context (components : Z -> list Z) (CO : components_ok components).
Lemma pieces_end n l : forall o, Forall (fun x => 0 <= x) l -> 0 <= o -> highest (pieces n o l) = match l with [] => 0 | _ => Z.max 0 (o + total l) end.
Proof.
  induction l as [|d l IH]; intros o F O; [reflexivity|]. inversion F as [|? ? D F']. cbn [pieces highest fold_right total]. fold (highest (pieces n (o + d) l)) (total l). rewrite IH by (assumption || lia). unfold n_end. cbn [n_off n_len].
  assert (T : 0 <= total l). { clear - F'. induction F'; cbn; [lia|]. fold (total l). lia. }
  destruct l; cbn [total fold_right]; [cbn; lia|]. cbn in T. lia.
Qed.
Lemma pieces_ends n l : forall o x, Forall (fun x => 0 <= x) l -> In x (pieces n o l) -> o <= n_off x /\ n_end x <= o + total l.
Proof.
  induction l as [|d l IH]; intros o x F I; [destruct I|]. inversion F as [|? ? D F']. cbn [pieces total fold_right] in *. fold (total l).
  assert (T : 0 <= total l). { clear - F'. induction F'; cbn; [lia|]. fold (total l). lia. }
  destruct I as [<-|I]; [unfold n_end; cbn; lia|]. destruct (IH _ _ F' I). lia.
Qed.
Lemma pieces_last n l : forall o, l <> [] -> exists x, In x (pieces n o l) /\ n_end x = o + total l.
Proof.
  induction l as [|d l IH]; intros o N; [congruence|]. cbn [pieces total fold_right]. fold (total l). destruct l as [|e l].
  - eexists. split; [left; reflexivity|]. unfold n_end. cbn. lia.
  - destruct (IH (o + d)) as (x & X & E); [discriminate|]. exists x. split; [right; exact X|]. lia.
Qed.
Lemma highest_le l h : 0 <= h -> (forall n, In n l -> n_end n <= h) -> highest l <= h.
Proof. induction l as [|a l IH]; intros H F; [exact H|]. cbn [highest fold_right]. fold (highest l). specialize (IH H). assert (highest l <= h) by (apply IH; intros; apply F; right; assumption). specialize (F a (or_introl eq_refl)). lia. Qed.
Lemma split_highest l : lengths_ok l -> highest (flat_map (split_hidden components) l) = highest l.
Proof.
  induction 1 as [|n l N F IH]; [reflexivity|]. cbn [flat_map]. rewrite highest_app, IH. cbn [highest fold_right]. fold (highest l). pose proof (highest_nonneg l) as P.
  enough (E : Z.max 0 (highest (split_hidden components n)) = Z.max 0 (n_end n)) by (pose proof (highest_nonneg (split_hidden components n)); lia).
  unfold split_hidden. destruct (n_rest n && n_hidden n); [|cbn; lia]. destruct (CO _ N) as (T & Q). destruct (components (n_len n)) as [|x [|y r]] eqn:C; [cbn; lia|cbn; lia|].
  destruct (pieces_last n (x :: y :: r) (n_off n)) as (z & I & E); [discriminate|]. rewrite T in E. apply highest_end in I.
  assert (U : highest (pieces n (n_off n) (x :: y :: r)) <= Z.max 0 (n_end n)).
  { apply highest_le; [lia|]. intros w W. destruct (pieces_ends n _ _ _ Q W) as (_ & W'). rewrite T in W'. unfold n_end at 2. lia. }
  unfold n_end in *. lia.
Qed.
Lemma split_visible l : visible (flat_map (split_hidden components) l) = visible l.
Proof.
  induction l as [|n l IH]; [reflexivity|]. cbn [flat_map]. unfold visible in *. rewrite filter_app, IH. cbn [filter]. unfold split_hidden.
  destruct (n_hidden n) eqn:H; [|rewrite andb_false_r; cbn [filter]; rewrite H; reflexivity]. cbn [negb]. rewrite andb_true_r.
  assert (Z : forall r o, filter (fun m => negb (n_hidden m)) (pieces n o r) = []) by (induction r as [|d r IHr]; intro o; [reflexivity|]; cbn [pieces filter n_hidden]; rewrite H; apply IHr).
  destruct (n_rest n); [|cbn [filter]; rewrite H; reflexivity]. destruct (components (n_len n)) as [|x [|y r]]; cbn [filter]; rewrite ?H; try reflexivity. rewrite Z. reflexivity.
Qed.
Lemma pieces_apart n l : forall o, apart (pieces n o l).
Proof. induction l as [|d l IH]; intro o; [exact Logic.I|]. cbn [pieces apart]. specialize (IH (o + d)). destruct l; cbn [pieces] in *; [exact Logic.I|]. split; [cbn; lia|exact IH]. Qed.
Lemma apart_app a b : apart a -> apart b -> (forall x, last (map Some a) None = Some x -> match b with y :: _ => n_end x <= n_off y | [] => True end) -> apart (a ++ b).
Proof.
  induction a as [|x a IH]; intros A B H; [exact B|]. destruct a as [|y a].
  - cbn [app]. destruct b as [|z b]; [exact Logic.I|]. split; [exact (H x eq_refl)|exact B].
  - destruct A as (A1 & A2). change (n_off x + n_len x <= n_off y /\ apart ((y :: a) ++ b)). split; [exact A1|]. apply IH; [exact A2|exact B|]. intros z Z. apply H. exact Z.
Qed.
Lemma split_parts n : 0 <= n_len n -> exists x r, split_hidden components n = x :: r /\ n_off x = n_off n /\ apart (x :: r) /\ (forall z, last (map Some (x :: r)) None = Some z -> n_end z = n_end n).
Proof.
  intro N. unfold split_hidden. destruct (n_rest n && n_hidden n).
  - destruct (CO _ N) as (T & Q). destruct (components (n_len n)) as [|a [|b r]] eqn:C.
    + exists n, []. repeat split. intros z Z. injection Z as <-. reflexivity.
    + exists n, []. repeat split. intros z Z. injection Z as <-. reflexivity.
    + eexists _, _. split; [reflexivity|]. split; [reflexivity|]. split; [exact (pieces_apart n (a :: b :: r) (n_off n))|].
      intros z Z. assert (G : forall l o, l <> [] -> forall z, last (map Some (pieces n o l)) None = Some z -> n_end z = o + total l).
      { clear. induction l as [|d l IH]; intros o H z Z; [congruence|]. destruct l as [|e l]; [cbn in Z; injection Z as <-; unfold n_end; cbn; lia|].
        cbn [total fold_right]. fold (total l). assert (E := IH (o + d) ltac:(discriminate) z Z). cbn [total fold_right] in E. fold (total l) in E. lia. }
      specialize (G (a :: b :: r) (n_off n) ltac:(discriminate) z Z). rewrite G, T. reflexivity.
  - exists n, []. repeat split. intros z Z. injection Z as <-. reflexivity.
Qed.
Lemma split_apart l : lengths_ok l -> apart l -> apart (flat_map (split_hidden components) l).
Proof.
  induction 1 as [|n l N F IH]; intro A; [exact Logic.I|]. cbn [flat_map]. destruct (split_parts n N) as (x & r & E & O & P & L). rewrite E. apply apart_app; [exact P|apply IH; destruct l; [exact Logic.I|apply A]|].
  intros z Z. apply L in Z. destruct l as [|m l]; [exact Logic.I|]. inversion F as [|? ? M F']. cbn [flat_map]. destruct (split_parts m M) as (x' & r' & E' & O' & _). rewrite E'. cbn [app]. rewrite O', Z. apply A.
Qed.
End Split.

(** *** Measures *)
Lemma len_nonneg m : 0 <= measure_len m.
Proof. unfold measure_len. induction (m_voices m) as [|v l IH]; cbn [fold_right]; [apply highest_nonneg|lia]. Qed.
Lemma pad_len x m : plain m -> measure_len m <= x -> measure_len (pad x m) = x.
Proof.
  intros P L. unfold pad. destruct (measure_len m <? x) eqn:E; [apply Z.ltb_lt in E|apply Z.ltb_ge in E; lia].
  destruct (m_voices m) as [|v vs] eqn:V.
  - unfold measure_len at 1. cbn [m_voices m_notes fold_right]. rewrite highest_space by lia. unfold measure_len. rewrite V. cbn. lia.
  - destruct P as [P|P]; [congruence|]. set (d := x - measure_len m) in *. assert (D : measure_len m + d = x) by lia. rewrite <- D at 1. assert (D0 : 0 <= d) by lia. clearbody d. clear E D L.
    unfold measure_len. cbn [m_voices m_notes]. rewrite V, P. cbn [highest fold_right map]. rewrite highest_space by exact D0. clear V. pose proof (highest_nonneg v) as Hv. 
    assert (G : forall h, 0 <= h -> Z.max (h + d) (fold_right (fun v h => Z.max (highest v) h) 0 (map (add_space d) vs)) = Z.max h (fold_right (fun v h => Z.max (highest v) h) 0 vs) + d).
    { induction vs as [|w vs IH]; intros h H; [cbn; lia|]. cbn [map fold_right]. rewrite highest_space by exact D0. specialize (IH (Z.max h (highest w))). assert (0 <= highest w) by apply highest_nonneg. lia. }
    apply G. exact Hv.
Qed.
Lemma pad_all_len lens : forall p, Forall plain p -> length p = length lens -> Forall2 Z.le (map measure_len p) lens -> map measure_len (pad_all lens p) = lens.
Proof.
  induction lens as [|x lens IH]; intros [|m p] P L F; try discriminate; [reflexivity|]. cbn [pad_all map] in *. inversion P as [|? ? P1 P2]. inversion F as [|? ? ? ? F1 F2].
  rewrite pad_len by assumption. f_equal. apply IH; [exact P2|cbn in L; lia|exact F2].
Qed.
Lemma zip_max_length a : forall b, length (zip_max a b) = Nat.max (length a) (length b).
Proof. induction a as [|x a IH]; intros [|y b]; try reflexivity. cbn. rewrite IH. reflexivity. Qed.
Lemma zip_max_l a : forall b, length a = length (zip_max a b) -> Forall2 Z.le a (zip_max a b).
Proof.
  induction a as [|x a IH]; intros [|y b] L; cbn [zip_max length] in *; try discriminate; [constructor| |].
  - constructor; [lia|]. clear. induction a; constructor; [lia|assumption].
  - constructor; [lia|]. apply IH. lia.
Qed.
Lemma zip_max_r c a : forall b, length (zip_max a b) = length c -> Forall2 Z.le c b -> Forall2 Z.le c (zip_max a b).
Proof.
  revert c. induction a as [|x a IH]; intros c [|y b] L F; cbn [zip_max] in *; try exact F.
  - inversion F. subst c. discriminate.
  - inversion F as [|u v c' b' U F' E1 E2]. subst. constructor; [lia|]. apply IH; [cbn in L; lia|exact F'].
Qed.
Lemma longest_length s k : Forall (fun p : part => length p = k) s -> length (longest s) = match s with [] => 0%nat | _ => k end.
Proof. induction 1 as [|p s P F IH]; [reflexivity|]. cbn [longest fold_right]. fold (longest s). rewrite zip_max_length, map_length, P, IH. destruct s; lia. Qed.
Lemma longest_above s k : Forall (fun p : part => length p = k) s -> Forall (fun p => Forall2 Z.le (map measure_len p) (longest s)) s.
Proof.
  induction 1 as [|p s P F IH]; [constructor|]. pose proof (longest_length (p :: s) k (Forall_cons p P F)) as L. cbn in L. pose proof (longest_length s k F) as L'. cbn [longest fold_right] in *. fold (longest s) in *. constructor.
  - apply zip_max_l. rewrite L, map_length. exact P.
  - rewrite Forall_forall in *. intros q Q. specialize (IH q Q). specialize (F q Q). apply zip_max_r; [rewrite L, map_length; symmetry; exact F|exact IH].
Qed.

(** Measures one after the other. *)
Fixpoint abut (p : part) : Prop :=
  match p with
  | a :: ((b :: _) as r) => m_off b = m_off a + measure_len a /\ abut r
  | _ => True
  end.
Lemma put_len o m : measure_len (put_at o m) = measure_len m.
Proof. reflexivity. Qed.
Lemma replace_abut p : forall re m, match replace_measures re m p with b :: _ => m_off b = m_off m + measure_len m | [] => True end /\ abut (replace_measures re m p).
Proof.
  induction p as [|b p IH]; intros re m; [split; exact Logic.I|]. cbn [replace_measures]. set (re' := re || _). set (b' := if re' then _ else _).
  assert (E : m_off b' = m_off m + measure_len m).
  { unfold b', re'. destruct re; [reflexivity|]. destruct (m_off m + measure_len m =? m_off b) eqn:E; [apply Z.eqb_eq in E; symmetry; exact E|reflexivity]. }
  split; [exact E|]. destruct (IH re' b') as (A & B). cbn [abut]. destruct (replace_measures re' b' p); [exact Logic.I|]. split; assumption.
Qed.
Lemma step6_abut p : abut (step6 p).
Proof. destruct p as [|m p]; [exact Logic.I|]. cbn [step6 abut]. destruct (replace_abut p false m) as (A & B). destruct (replace_measures false m p); [exact Logic.I|]. split; assumption. Qed.
Lemma replace_len p : forall re m, map measure_len (replace_measures re m p) = map measure_len p.
Proof. induction p as [|b p IH]; intros re m; [reflexivity|]. cbn [replace_measures map]. rewrite IH. f_equal. destruct (re || _); [apply put_len|reflexivity]. Qed.
Lemma step6_len p : map measure_len (step6 p) = map measure_len p.
Proof. destruct p as [|m p]; [reflexivity|]. cbn [step6 map]. rewrite replace_len. reflexivity. Qed.
Lemma abut_offsets p p' : abut p -> abut p' -> map measure_len p = map measure_len p' -> match p, p' with a :: _, b :: _ => m_off a = m_off b | _, _ => True end -> map m_off p = map m_off p'.
Proof.
  revert p'. induction p as [|a p IH]; intros [|a' p'] A A' L H; cbn [map] in L; try discriminate; [reflexivity|]. injection L as L1 L2. cbn [map]. rewrite H. f_equal.
  destruct p as [|b p], p' as [|b' p']; try discriminate; [reflexivity|]. destruct A as (A1 & A2), A' as (B1 & B2). apply IH; [exact A2|exact B2|exact L2|]. rewrite A1, B1, H, L1. reflexivity.
Qed.
