(** Proofs for Spec/UnlockSpec.v: a list whose RWMutex stays locked. *)
From Coq Require Import List Bool Arith Lia Permutation.
From Verif.Model Require Import Unlock.
From Verif.Spec Require Import UnlockSpec.
Import ListNotations.
Open Scope nat_scope.

(** the list stays locked *)
Definition stays {A} (m : M A) : Prop :=
  forall s, shut s -> match m s with (Ret _, s') | (Raise, s') => shut s' | _ => True end.
Definition stuck {A} (m : M A) : Prop := forall s, shut s -> fst (m s) = Stuck.
Lemma stays_ret {A} (a : A) : stays (ret a). Proof. intros s H. exact H. Qed.
Lemma stays_raise {A} : stays (@raise A). Proof. intros s H. exact H. Qed.
Lemma stays_need {A} (o : option A) : stays (need o). Proof. destruct o; intros s H; exact H. Qed.
Lemma stays_get {A} (f : st -> A) : stays (get f). Proof. intros s H. exact H. Qed.
Lemma stays_put f : (forall s, held (f s) = held s) -> stays (put f).
Proof. intros E s H. cbn. unfold shut. rewrite E. exact H. Qed.
Lemma stays_io x : stays (io x). Proof. intros s H. exact H. Qed.
Lemma stays_pick : stays pick. Proof. intros s H. exact H. Qed.
Lemma stays_fresh : stays fresh. Proof. intros s H. exact H. Qed.
Lemma stays_bind {A B} (m : M A) (f : A -> M B) : stays m -> (forall a, stays (f a)) -> stays (bind m f).
Proof.
  intros H1 H2 s S. unfold bind. specialize (H1 s S). destruct (m s) as [[a| | |] s']; auto. apply H2; auto.
Qed.
Lemma stays_stuck {A} (m : M A) : stuck m -> stays m.
Proof. intros H s S. specialize (H s S). destruct (m s) as [[a| | |] s']; auto; discriminate. Qed.
Lemma stuck_bind {A B} (m : M A) (f : A -> M B) : stuck m -> stuck (bind m f).
Proof. intros H s S. unfold bind. specialize (H s S). destruct (m s) as [[a| | |] s']; auto; discriminate. Qed.
Lemma stuck_deferred {A} d (m : M A) : stuck m -> stuck (deferred d m).
Proof. intros H s S. unfold deferred. specialize (H s S). destruct (m s) as [[a| | |] s']; auto; discriminate. Qed.
Lemma stuck_lock w : stuck (lock KList w).
Proof.
  intros s S. unfold lock. destruct (avail KList w (held s)) eqn:E; auto. unfold avail in E. rewrite forallb_forall in E.
  specialize (E _ S). cbn in E. rewrite orb_true_r in E. discriminate.
Qed.
Lemma stuck_touch w : stuck (touch KList w).
Proof. apply stuck_bind, stuck_lock. Qed.
Lemma stays_lock k w : stays (lock k w).
Proof. intros s S. unfold lock. destruct (avail k w (held s)); auto. right; auto. Qed.
Lemma stays_unlock k w : (k, w) <> (KList, true) -> stays (unlock k w).
Proof.
  intros D s S. unfold unlock. destruct (drop k w (held s)) as [h|] eqn:E; auto. unfold shut in *. cbn.
  revert h E S. induction (held s) as [|x l IH]; cbn; intros h E S; [discriminate|].
  destruct (lk_eqb (fst x) k && Bool.eqb (snd x) w) eqn:M.
  - injection E as <-. destruct S as [-> | S]; auto. exfalso. apply D. cbn in M. apply andb_true_iff in M as [M1 M2].
    destruct w; [|discriminate]. destruct k; try discriminate. auto.
  - destruct (drop k w l) as [r|]; [|discriminate]. injection E as <-. destruct S as [-> | S]; [left; auto | right; auto].
Qed.
Lemma stays_deferred {A} d (m : M A) : stays d -> stays m -> stays (deferred d m).
Proof.
  intros H1 H2 s S. unfold deferred. specialize (H2 s S). destruct (m s) as [[a| | |] s']; auto.
  - apply (stays_bind d (fun _ => ret a)); auto. intros _. apply stays_ret.
  - apply (stays_bind d (fun _ => raise)); auto. intros _. apply stays_raise.
Qed.
Lemma stays_touch k w : stays (touch k w).
Proof.
  destruct k; [apply stays_stuck, stuck_touch| | | | |]; apply stays_bind; try apply stays_lock; intros _; apply stays_unlock; discriminate.
Qed.
Lemma stays_deferred_list {A} w (m : M A) : stays (deferred (unlock KList w) (lock KList w;; m)).
Proof. apply stays_stuck, stuck_deferred, stuck_bind, stuck_lock. Qed.

Ltac sy :=
  match goal with
  | |- stays (ret _) => apply stays_ret
  | |- stays raise => apply stays_raise
  | |- stays (need _) => apply stays_need
  | |- stays (get _) => apply stays_get
  | |- stays (put _) => apply stays_put; reflexivity
  | |- stays (io _) => apply stays_io
  | |- stays pick => apply stays_pick
  | |- stays fresh => apply stays_fresh
  | |- stays (lock _ _) => apply stays_lock
  | |- stays (touch _ _) => apply stays_touch
  | |- stays (unlock _ _) => apply stays_unlock; discriminate
  | |- stays (deferred (unlock KList _) (bind (lock KList _) _)) => apply stays_deferred_list
  | |- stays (bind (lock KList _) _) => apply stays_stuck, stuck_bind, stuck_lock
  | |- stays (bind (touch KList _) _) => apply stays_stuck, stuck_bind, stuck_touch
  | |- stays (deferred _ _) => apply stays_deferred
  | |- stays (bind _ _) => apply stays_bind; [|intros]
  | |- stays (match ?x with _ => _ end) => destruct x
  | |- stays (let '(_, _) := ?x in _) => destruct x
  end.
Lemma stays_pickb : stays pickb. Proof. unfold pickb. repeat sy. Qed.
Ltac sz := repeat first [sy | apply stays_pickb | assumption].
Lemma stays_some_of l : stays (some_of l). Proof. induction l; cbn; sz. Qed.
Lemma stays_one_of l : stays (one_of l). Proof. unfold one_of. sz. Qed.
Lemma stays_each {A} (l : list A) f : (forall a, stays (f a)) -> stays (each l f).
Proof. intros H. induction l; cbn; sz. apply H. Qed.
Lemma stays_all_of {A} (l : list A) f : (forall a, stays (f a)) -> stays (all_of l f).
Proof. intros H. induction l; cbn; sz. apply H. Qed.
Lemma stays_times n f : stays f -> stays (times n f).
Proof. intros H. induction n; cbn; sz. Qed.
Ltac sw := repeat first
  [ sy | apply stays_pickb | apply stays_some_of | apply stays_one_of | apply stays_each; intros | apply stays_all_of; intros
  | apply stays_times | assumption ].
Lemma stays_elem_full i ro : stays (elem_full i ro). Proof. unfold elem_full. sw. Qed.
Lemma stays_reading i m : stays m -> stays (reading i m). Proof. intros. unfold reading. sw. apply stays_elem_full. Qed.
Lemma stays_replace_seg c i x : stays (replace_seg c i x). Proof. unfold replace_seg. sw. Qed.
Lemma stays_new_seg c : stays (new_seg c). Proof. unfold new_seg. sw. Qed.
Lemma stays_nse x : stays (new_segments_elements x).
Proof. unfold new_segments_elements. sw; [apply stays_new_seg | apply stays_replace_seg]. Qed.
Lemma stays_new_coll : stays new_coll. Proof. unfold new_coll. sw. Qed.
Lemma stays_fresh_n n : stays (fresh_n n). Proof. induction n; cbn; sw. Qed.
Lemma stays_load_coll x : stays (load_coll x). Proof. unfold load_coll. sw. apply stays_fresh_n. Qed.
Lemma stays_split_by_id c : stays (split_by_id c). Proof. unfold split_by_id, reindex_map. sw. Qed.
Lemma stays_split_by_score c : stays (split_by_score c). Proof. unfold split_by_score. sw. Qed.
Lemma stays_insert_sorted c : stays (insert_sorted c).
Proof. unfold insert_sorted, rewrite. sw; [apply stays_elem_full | apply stays_replace_seg]. Qed.
Lemma stays_call_unlock g c : stays (call_unlock g c). Proof. unfold call_unlock. sw. Qed.
Lemma stays_unlock_segs g : stays (unlock_segs g). Proof. unfold unlock_segs, unlock_of. sw. apply stays_call_unlock. Qed.
Lemma stays_update_segments g : stays (update_segments g). Proof. unfold update_segments. sw. Qed.
Lemma stays_reindex w g : stays (reindex w g). Proof. unfold reindex. sw. Qed.
Lemma stays_load ro u : stays (load_segments ro u).
Proof.
  unfold load_segments. sw.
  all: first [apply stays_load_coll | apply stays_unlock_segs | apply stays_update_segments | apply stays_new_coll | apply stays_reindex].
Qed.
Lemma stays_insert_all g : stays (insert_all g). Proof. unfold insert_all. sw; apply stays_insert_sorted. Qed.

(** never successful *)
Definition fails (m : M bool) : Prop := forall s, shut s -> fst (m s) <> Ret true.
Lemma fails_stuck m : stuck m -> fails m.
Proof. intros H s S. rewrite H; auto. discriminate. Qed.
Lemma fails_bind {A} (m : M A) f : stays m -> (forall a, fails (f a)) -> fails (bind m f).
Proof.
  intros H1 H2 s S. unfold bind. specialize (H1 s S). destruct (m s) as [[a| | |] s']; cbn; try discriminate. apply H2; auto.
Qed.
Lemma fails_if (b : bool) m m' : fails m -> fails m' -> fails (if b then m else m').
Proof. destruct b; auto. Qed.
Lemma fails_no : fails (ret false). Proof. intros s S. discriminate. Qed.
Lemma fails_deferred d m : stays d -> fails m -> fails (deferred d m).
Proof.
  intros H1 H2 s S. unfold deferred. specialize (H2 s S). destruct (m s) as [[a| | |] s']; cbn; try discriminate.
  - unfold bind. destruct (d s') as [[u| | |] s'']; cbn; auto; discriminate.
  - unfold bind. destruct (d s') as [[u| | |] s'']; cbn; auto; discriminate.
Qed.
Lemma fails_with ro u m : (forall g, fails (m g)) -> fails (with_segs ro u m).
Proof.
  intros H. unfold with_segs. apply fails_bind; [apply stays_load|]. intros [g|]; [|apply fails_no].
  unfold defer_unlock, unlock_of. apply fails_bind; [sw|]. intros c. apply fails_deferred; [apply stays_call_unlock | apply H].
Qed.
Lemma fails_touch k w m : k = KList -> fails (touch k w;; m).
Proof. intros ->. apply fails_stuck, stuck_bind, stuck_touch. Qed.
Lemma fails_save x g : fails (save_segments x g).
Proof. unfold save_segments. apply fails_bind; [apply stays_update_segments|]. intros _. apply fails_touch; auto. Qed.
Lemma stays_do_stats b : stays (do_stats b).
Proof.
  assert (T : stays do_top).
  { unfold do_top, with_segs, defer_unlock, unlock_of. sw; first [apply stays_load | apply stays_call_unlock]. }
  unfold do_stats, with_segs, defer_unlock, unlock_of. sw; first [apply stays_load | apply stays_call_unlock].
Qed.
Lemma run_shut c s : shut s -> unaware c = false -> fst (run c s) <> Ret true.
Proof.
  intros S U. revert s S. change (fails (run c)). destruct c; try discriminate; cbn [run].
  - unfold do_populate. apply fails_bind; [apply stays_load|]. intros o. apply fails_stuck, stuck_bind. unfold populate. apply stuck_bind, stuck_touch.
  - apply fails_with. intros g. apply fails_touch; auto.
  - apply fails_with. intros g. apply fails_touch; auto.
  - apply fails_with. intros g. apply fails_touch; auto.
  - apply fails_with. intros g. unfold get_elements. apply fails_touch; auto.
  - apply fails_with. intros g. apply fails_touch; auto.
  - apply fails_with. intros g. apply fails_touch; auto.
  - apply fails_with. intros g. apply fails_bind; [apply stays_insert_all|]. intros ok. apply fails_if; [|apply fails_no].
    apply fails_bind; [unfold check_split; sw|]. intros _. apply fails_save.
  - apply fails_with. intros g. apply fails_touch; auto.
  - apply fails_touch; auto.
  - apply fails_with. intros g. unfold reindex. destruct (g_ro g).
    + intros s _. discriminate.
    + destruct (negb (g_upd g)); [intros s _; discriminate|]. apply fails_stuck. do 2 apply stuck_bind. apply stuck_touch.
  - apply fails_touch; auto.
  - unfold do_repair. apply fails_bind; [apply stays_do_stats|]. intros b. apply fails_touch; auto.
  - apply fails_with. intros g. apply fails_bind; [sw|]. intros ok. apply fails_if; [|apply fails_no]. apply fails_stuck, stuck_bind, stuck_lock.
  - apply fails_with. intros g. apply fails_touch; auto.
Qed.
Lemma fresh_n_next n : forall s, exists l k, fresh_n n s =
  (Ret l, mkSt (held s) (works s) (picks s) (acc s) (npick s) k (coll s) (unl s) (l_sc s) (l_ix s) (scset s) (ixset s)).
Proof.
  induction n as [|n IH]; intros s.
  - exists [], (next s). destruct s; reflexivity.
  - cbn [fresh_n]. unfold bind at 1. cbn [fresh]. unfold bind at 1.
    destruct (IH (mkSt (held s) (works s) (picks s) (acc s) (npick s) (S (next s)) (coll s) (unl s) (l_sc s) (l_ix s) (scset s) (ixset s))) as (l & k & E).
    unfold fresh. rewrite E. cbn. do 2 eexists. reflexivity.
Qed.
Lemma run_aware s : held s = [(KList, true)] -> l_sc s = None -> l_ix s = None -> scset s = true -> ixset s = true ->
  (forall n, works s n GetScores = true /\ works s n GetIndex = true) ->
  fst (run Len s) = Ret true /\ fst (run (Stats false) s) = Ret true.
Proof.
  destruct s as [h w p a np nx co un sc ix b1 b2]; cbn. intros -> -> -> -> -> W.
  cbv [do_len do_stats with_segs load_segments lock unlock touch avail drop deferred bind ret fresh put get load_coll io pick set_held set_unl_of set_coll_of set_list upd update_segments
   defer_unlock unlock_of call_unlock need held works picks acc npick next coll unl l_sc l_ix scset ixset forallb lk_eqb fst snd negb andb orb g_ro g_scores g_index g_upd g_obj Bool.eqb].
  rewrite !(proj1 (W _)).
  split;
  repeat match goal with
  | |- context [fresh_n ?n ?s] => let l := fresh "l" in let k := fresh "k" in let E := fresh "E" in destruct (fresh_n_next n s) as (l & k & E); rewrite E; clear E; cbv [held works picks acc npick next coll unl l_sc l_ix scset ixset]
  | |- context [w ?n GetIndex] => rewrite (proj2 (W n))
  end; cbv -[Nat.eqb nth_error Nat.modulo]; rewrite ?Nat.eqb_refl; reflexivity.
Qed.
