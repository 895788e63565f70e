(** Invariants of concurrently running calls. *)
From Verif.Lib Require Import Prelude ListAux ListLemmas.
From Verif.Model Require Import Element Elements Segment List Locks.
From Verif.Spec Require Import LockSpec.
From Verif.Proof Require Import ChangeP.
Open Scope nat_scope.

Lemma lock_eqb_true a b : lock_eqb a b = true <-> a = b.
Proof. unfold lock_eqb. destruct (lock_eq_dec a b); split; congruence. Qed.
Lemma lock_eqb_refl a : lock_eqb a a = true.
Proof. apply lock_eqb_true. reflexivity. Qed.
Lemma lock_eqb_false a b : lock_eqb a b = false <-> a <> b.
Proof. unfold lock_eqb. destruct (lock_eq_dec a b); split; congruence. Qed.
Lemma mem_lock_In k l : mem_lock k l = true <-> In k l.
Proof.
  unfold mem_lock. rewrite existsb_exists. split.
  - intros (x & H & E). apply lock_eqb_true in E as ->. exact H.
  - intros H. exists k. split; [exact H|apply lock_eqb_refl].
Qed.
Lemma mem_lock_not k l : mem_lock k l = false <-> ~ In k l.
Proof. rewrite <- mem_lock_In. destruct (mem_lock k l); split; congruence. Qed.

(** ** Sums over threads *)
Lemma total_cons f y ths : total f (y :: ths) = f y + total f ths.
Proof. reflexivity. Qed.
Lemma total_upd f t x : forall ths th, nth_error ths t = Some th ->
  total f (upd_nth t (fun _ => x) ths) + f th = total f ths + f x.
Proof.
  induction t; intros [|y ths] th H; try discriminate H; cbn [nth_error upd_nth] in *; rewrite !total_cons.
  - injection H as ->. lia.
  - specialize (IHt ths th H). lia.
Qed.
Lemma total_one f t : forall ths th, nth_error ths t = Some th -> f th <= total f ths.
Proof.
  induction t; intros [|y ths] th H; try discriminate H; cbn [nth_error] in *; rewrite !total_cons.
  - injection H as ->. lia.
  - specialize (IHt ths th H). lia.
Qed.
Lemma total_two f t u : forall ths a b, t <> u -> nth_error ths t = Some a -> nth_error ths u = Some b ->
  f a + f b <= total f ths.
Proof.
  revert u. induction t; intros u [|y ths] a b N Ha Hb; try discriminate Ha; destruct u; try congruence;
    cbn [nth_error] in Ha, Hb; rewrite total_cons.
  - injection Ha as ->. pose proof (total_one f _ _ _ Hb). lia.
  - injection Hb as ->. pose proof (total_one f _ _ _ Ha). lia.
  - assert (t <> u) as N' by congruence. specialize (IHt u ths a b N' Ha Hb). lia.
Qed.
Lemma total_pos f ths : total f ths <> 0 -> exists t th, nth_error ths t = Some th /\ f th <> 0.
Proof.
  induction ths as [|y ths IH]; [cbn; lia|]. rewrite total_cons. intros H.
  destruct (Nat.eq_dec (f y) 0) as [E|E].
  - destruct IH as (t & th & Ht & Hf); [lia|]. exists (S t), th. auto.
  - exists 0, y. auto.
Qed.

Lemma nth_upd {A} (l : list A) t x u :
  nth_error (upd_nth t (fun _ => x) l) u = if t =? u then option_map (fun _ => x) (nth_error l u) else nth_error l u.
Proof. apply upd_nth_nth. Qed.
Lemma nth_upd_same {A} (l : list A) t x th : nth_error l t = Some th -> nth_error (upd_nth t (fun _ => x) l) t = Some x.
Proof. intros H. rewrite nth_upd, Nat.eqb_refl, H. reflexivity. Qed.
Lemma nth_upd_other {A} (l : list A) t x u : t <> u -> nth_error (upd_nth t (fun _ => x) l) u = nth_error l u.
Proof. intros H. rewrite nth_upd. apply Nat.eqb_neq in H as ->. reflexivity. Qed.

(** ** Holding *)
Definition cnt (k : lock) (w : bool) (h : list (lock * bool)) : nat :=
  length (filter (fun x => lock_eqb k (fst x) && Bool.eqb w (snd x)) h).
Lemma holds_cnt k w th : holds k w th = cnt k w (t_held th).
Proof. reflexivity. Qed.
Lemma cnt_cons k w k' w' h : cnt k w ((k', w') :: h) = (if lock_eqb k k' && Bool.eqb w w' then 1 else 0) + cnt k w h.
Proof. unfold cnt. cbn. destruct (lock_eqb k k' && Bool.eqb w w'); reflexivity. Qed.
Lemma cnt_app k w a b : cnt k w (a ++ b) = cnt k w a + cnt k w b.
Proof. unfold cnt. rewrite filter_app, app_length. reflexivity. Qed.
Lemma cnt_In k w h : cnt k w h <> 0 <-> In (k, w) h.
Proof.
  induction h as [|[k' w'] h IH]; [cbn; intuition|]. rewrite cnt_cons. split.
  - destruct (lock_eqb k k') eqn:E; [|intros; right; apply IH; cbn in *; lia].
    apply lock_eqb_true in E as ->. destruct (Bool.eqb w w') eqn:Ew; [|intros; right; apply IH; cbn in *; lia].
    apply eqb_prop in Ew as ->. left. reflexivity.
  - intros [E|H].
    + injection E as -> ->. rewrite lock_eqb_refl, eqb_reflx. cbn. lia.
    + apply IH in H. lia.
Qed.

Lemma drop_held_inv k : forall h h', drop_held k h = Some h' ->
  exists a w b, h = a ++ (k, w) :: b /\ h' = a ++ b /\ ~ In k (map fst a).
Proof.
  induction h as [|[k' w'] h IH]; cbn; intros h' H; [discriminate|].
  destruct (lock_eqb k k') eqn:E.
  - injection H as <-. apply lock_eqb_true in E as <-. exists [], w', h. cbn. tauto.
  - destruct (drop_held k h) as [r|]; [|discriminate]. injection H as <-.
    destruct (IH r eq_refl) as (a & w & b & -> & -> & N). exists ((k', w') :: a), w, b.
    apply lock_eqb_false in E. cbn. repeat split; try reflexivity. intros [X|X]; [congruence|tauto].
Qed.
Lemma drop_held_some k h : In k (map fst h) -> exists h', drop_held k h = Some h'.
Proof.
  induction h as [|[k' w'] h IH]; cbn; intros H; [destruct H|].
  destruct (lock_eqb k k') eqn:E; [eauto|]. apply lock_eqb_false in E.
  destruct IH as (h' & ->); [destruct H; [congruence|assumption]|eauto].
Qed.
Lemma drop_held_cnt k h h' : drop_held k h = Some h' -> forall k' w, cnt k' w h' <= cnt k' w h.
Proof.
  intros H k' w. apply drop_held_inv in H as (a & w0 & b & -> & -> & _). rewrite !cnt_app, cnt_cons. lia.
Qed.

(** ** The steps, case by case *)
Inductive tmove (c : conf) (t : nat) (th : thread) : thread -> lst -> list (nat * op) -> Prop :=
| M_lock k r : t_prog th = Acq k true :: r -> t_ann th = true ->
    writers k (c_threads c) = 0 -> readers k (c_threads c) = 0 ->
    tmove c t th (mkT r ((k, true) :: t_held th) false (t_new th) (t_got th)) (c_cur c) (c_log c)
| M_ann k r : t_prog th = Acq k true :: r -> t_ann th = false ->
    writers k (c_threads c) = 0 -> queued k (c_threads c) = 0 ->
    tmove c t th (mkT (t_prog th) (t_held th) true (t_new th) (t_got th)) (c_cur c) (c_log c)
| M_rlock k r : t_prog th = Acq k false :: r ->
    writers k (c_threads c) = 0 -> queued k (c_threads c) = 0 ->
    tmove c t th (mkT r ((k, false) :: t_held th) false (t_new th) (t_got th)) (c_cur c) (c_log c)
| M_rel k r h : t_prog th = Rel k :: r -> drop_held k (t_held th) = Some h ->
    tmove c t th (mkT r h false (t_new th) (t_got th)) (c_cur c) (c_log c)
| M_get b i r : t_prog th = Get b i :: r ->
    tmove c t th (mkT r (t_held th) false (t_new th)
                    (t_got th ++ [(length (c_log c), (b, i), seg_of b i (c_cur c))])) (c_cur c) (c_log c)
| M_work o r new p : t_prog th = Work o :: r -> step (c_cur c) o = Done new -> plan_for o (c_cur c) new p = true ->
    tmove c t th (mkT (p ++ r) (t_held th) false new (t_got th)) (c_cur c) (c_log c ++ [(t, o)])
| M_dirty k r g : t_prog th = Dirty k :: r ->
    tmove c t th (mkT r (t_held th) false (t_new th) (t_got th)) (put k g (c_cur c)) (c_log c)
| M_put k r : t_prog th = Put k :: r ->
    tmove c t th (mkT r (t_held th) false (t_new th) (t_got th)) (put k (t_new th) (c_cur c)) (c_log c).

Lemma move_inv c t g p c' : move c t g p = Some c' ->
  exists th th' cur log, nth_error (c_threads c) t = Some th /\ tmove c t th th' cur log /\
    c' = mkC cur (upd_nth t (fun _ => th') (c_threads c)) log.
Proof.
  unfold move, set_thread. intros H. destruct (nth_error (c_threads c) t) as [th|]; [|discriminate].
  destruct (t_prog th) as [|[k [|]|k|b i|o|k|k] r] eqn:Ep; try discriminate H.
  - destruct (t_ann th) eqn:Ea.
    + destruct (writers k (c_threads c) =? 0) eqn:Ew; [|discriminate].
      destruct (readers k (c_threads c) =? 0) eqn:Er; [|discriminate]. cbn in H. injection H as <-.
      apply Nat.eqb_eq in Ew, Er. do 4 eexists. split; [reflexivity|split; [eapply M_lock; eassumption|reflexivity]].
    + destruct (writers k (c_threads c) =? 0) eqn:Ew; [|discriminate].
      destruct (queued k (c_threads c) =? 0) eqn:Er; [|discriminate]. cbn in H. injection H as <-.
      apply Nat.eqb_eq in Ew, Er. rewrite <- Ep.
      do 4 eexists. split; [reflexivity|split; [eapply M_ann; eassumption|reflexivity]].
  - destruct (writers k (c_threads c) =? 0) eqn:Ew; [|discriminate].
    destruct (queued k (c_threads c) =? 0) eqn:Er; [|discriminate]. cbn in H. injection H as <-.
    apply Nat.eqb_eq in Ew, Er. do 4 eexists. split; [reflexivity|split; [eapply M_rlock; eassumption|reflexivity]].
  - destruct (drop_held k (t_held th)) as [h|] eqn:Eh; [|discriminate]. injection H as <-.
    do 4 eexists. split; [reflexivity|split; [eapply M_rel; eassumption|reflexivity]].
  - injection H as <-. do 4 eexists. split; [reflexivity|split; [eapply M_get; eassumption|reflexivity]].
  - destruct (step (c_cur c) o) as [new| | |] eqn:Es; try discriminate.
    destruct (plan_for o (c_cur c) new p) eqn:El; [|discriminate]. injection H as <-.
    do 4 eexists. split; [reflexivity|split; [eapply M_work; eassumption|reflexivity]].
  - injection H as <-. do 4 eexists. split; [reflexivity|split; [eapply M_dirty; eassumption|reflexivity]].
  - injection H as <-. do 4 eexists. split; [reflexivity|split; [eapply M_put; eassumption|reflexivity]].
Qed.

(** induction over what the calls can get into *)
Lemma moves_app c s1 s2 : moves c (s1 ++ s2) = match moves c s1 with Some c' => moves c' s2 | None => None end.
Proof.
  revert c. induction s1 as [|(t & g & p) s1 IH]; intros c; cbn; [reflexivity|].
  destruct (move c t g p); [apply IH|reflexivity].
Qed.
Lemma moves_ind (P : conf -> Prop) c0 :
  P c0 -> (forall c t g p c', P c -> move c t g p = Some c' -> P c') ->
  forall s c, moves c0 s = Some c -> P c.
Proof.
  intros H0 Hs s. revert c0 H0. induction s as [|(t & g & p) s IH]; cbn; intros c0 H0 c H.
  - injection H as <-. exact H0.
  - destruct (move c0 t g p) as [c1|] eqn:E; [|discriminate]. eapply IH; [|exact H]. eapply Hs; eassumption.
Qed.

(** ** Mutual exclusion *)
Definition excl (ths : list thread) : Prop :=
  forall k, writers k ths = 0 \/ (writers k ths = 1 /\ readers k ths = 0).

Lemma excl_held ths t th th' : nth_error ths t = Some th -> excl ths ->
  (forall k w, cnt k w (t_held th') <= cnt k w (t_held th)) -> excl (upd_nth t (fun _ => th') ths).
Proof.
  intros Ht H Hle k. pose proof (total_upd (holds k true) t th' ths th Ht) as A.
  pose proof (total_upd (holds k false) t th' ths th Ht) as B.
  unfold writers, readers. rewrite !holds_cnt in A, B. pose proof (Hle k true). pose proof (Hle k false).
  specialize (H k). unfold writers, readers in H. lia.
Qed.
Lemma excl_move c t th th' cur log : nth_error (c_threads c) t = Some th -> tmove c t th th' cur log ->
  excl (c_threads c) -> excl (upd_nth t (fun _ => th') (c_threads c)).
Proof.
  intros Ht M H. destruct M; try (apply (excl_held _ t th _ Ht H); cbn [t_held]; intros; apply le_n).
  - intros k'. pose proof (fun w => total_upd (holds k' w) t
      (mkT r ((k, true) :: t_held th) false (t_new th) (t_got th)) _ _ Ht) as A.
    pose proof (A true) as A1. pose proof (A false) as A2. rewrite !holds_cnt in A1, A2. cbn [t_held] in A1, A2.
    rewrite cnt_cons in A1, A2. unfold writers, readers. specialize (H k').
    destruct (lock_eqb k' k) eqn:E; cbn [andb Bool.eqb] in A1, A2.
    + apply lock_eqb_true in E as ->. unfold writers, readers in *. right. lia.
    + unfold writers, readers in *. lia.
  - intros k'. pose proof (fun w => total_upd (holds k' w) t
      (mkT r ((k, false) :: t_held th) false (t_new th) (t_got th)) _ _ Ht) as A.
    pose proof (A true) as A1. pose proof (A false) as A2. rewrite !holds_cnt in A1, A2. cbn [t_held] in A1, A2.
    rewrite cnt_cons in A1, A2. unfold writers, readers. specialize (H k').
    destruct (lock_eqb k' k) eqn:E; cbn [andb Bool.eqb] in A1, A2.
    + apply lock_eqb_true in E as ->. unfold writers, readers in *. left. lia.
    + unfold writers, readers in *. lia.
  - apply (excl_held _ t th _ Ht H). cbn [t_held]. apply drop_held_cnt with (1 := H1).
Qed.
Lemma excl_two ths t u a b k w : excl ths -> t <> u -> nth_error ths t = Some a -> nth_error ths u = Some b ->
  In (k, true) (t_held a) -> In (k, w) (t_held b) -> False.
Proof.
  intros H N Ha Hb Ia Ib. apply cnt_In in Ia, Ib. specialize (H k). unfold writers, readers in H.
  destruct w.
  - pose proof (total_two (holds k true) t u ths a b N Ha Hb) as A. rewrite !holds_cnt in A. lia.
  - pose proof (total_one (holds k true) t ths a Ha) as A. pose proof (total_one (holds k false) u ths b Hb) as B.
    rewrite holds_cnt in A, B. lia.
Qed.
Lemma start_held l xs t th : nth_error (c_threads (start l xs)) t = Some th ->
  exists x, nth_error xs t = Some x /\ th = mkT (prog_of x) [] false l [].
Proof.
  cbn. rewrite nth_error_map. destruct (nth_error xs t) as [x|]; [|discriminate]. cbn. intros E. injection E as <-. eauto.
Qed.
Lemma excl_start l xs : excl (c_threads (start l xs)).
Proof.
  intros k. left. unfold writers, total. cbn. induction xs as [|x xs IH]; cbn; auto.
Qed.

(** ** Shape of the calls *)
Fixpoint sane (h : list (lock * bool)) (p : list act) : Prop :=
  match p with
  | [] => h = []
  | Acq k w :: r => sane ((k, w) :: h) r
  | Rel k :: r => match drop_held k h with Some h' => sane h' r | None => False end
  | Get b i :: r => In (LSeg b i) (map fst h) /\ In LSegs (map fst h) /\ sane h r
  | Work o :: r =>
    (if shared o then In LSegs (map fst h) /\ In (LUpdate, true) h else In (LSegs, true) h) /\
    (forall k, In k (map fst h) -> is_cell k = false) /\ sane h r
  | Dirty _ :: _ | Put _ :: _ => False
  end.

Lemma sane_reads ks : forall h r, In LSegs (map fst h) -> sane h r -> sane h (flat_map read_seg ks ++ r).
Proof.
  induction ks as [|[b i] ks IH]; intros h r Hl Hs; [exact Hs|].
  cbn [flat_map read_seg fst snd app sane drop_held]. rewrite lock_eqb_refl. repeat split.
  - left. reflexivity.
  - right. exact Hl.
  - apply IH; assumption.
Qed.
Lemma sane_holds js : forall h r, In LSegs (map fst h) -> sane (rev (map (fun j => (LSeg false j, false)) js) ++ h) r ->
  sane h (flat_map (fun j => hold_seg (false, j)) js ++ r).
Proof.
  induction js as [|j js IH]; intros h r Hl Hs; [exact Hs|].
  cbn [flat_map hold_seg fst snd app sane]. split; [left; reflexivity|]. split; [right; exact Hl|].
  apply IH; [right; exact Hl|]. cbn [map rev] in Hs. rewrite <- app_assoc in Hs. exact Hs.
Qed.
Lemma sane_frees js : forall h r, sane h r ->
  sane (map (fun j => (LSeg false j, false)) js ++ h) (flat_map (fun j => free_seg (false, j)) js ++ r).
Proof.
  induction js as [|j js IH]; intros h r Hs; [exact Hs|].
  cbn [flat_map free_seg fst snd app map sane drop_held]. rewrite lock_eqb_refl. apply IH, Hs.
Qed.
Lemma sane_walk js h r : In LSegs (map fst h) -> sane h r ->
  sane h (flat_map (fun j => hold_seg (false, j)) js ++ flat_map (fun j => free_seg (false, j)) (rev js) ++ r).
Proof. intros Hl Hs. apply sane_holds; [exact Hl|]. rewrite <- map_rev. apply sane_frees, Hs. Qed.

Lemma sane_call x : call_ok x = true -> sane [] (prog_of x).
Proof.
  intros Hok. destruct x as [cold ks|cold ks i below above|cold i window|cold ks|cold o ks|o| |cold ks]; cbn [prog_of].
  - assert (G : sane [(LSegs, false)] (read_stats ++ flat_map read_seg ks ++ unload false)).
    { cbn [read_stats app sane drop_held]. cbn. apply sane_reads; [left; reflexivity|]. reflexivity. }
    destruct cold; exact G.
  - assert (G : sane [(LSegs, false)]
      (flat_map read_seg ks ++ read_stats ++ read_around i below above ++ unload false)).
    { apply sane_reads; [left; reflexivity|]. cbn [read_stats app sane]. cbn [drop_held lock_eqb lock_eq_dec fst].
      unfold read_around. rewrite <- !app_assoc. cbn [hold_seg fst snd app sane]. cbn.
      split; [left; reflexivity|]. split; [right; left; reflexivity|].
      apply sane_walk; [right; left; reflexivity|]. apply sane_walk; [right; left; reflexivity|].
      cbn. rewrite lock_eqb_refl. reflexivity. }
    destruct cold; exact G.
  - assert (G : sane [(LSegs, false)] (read_stats ++ read_score i window ++ unload false)).
    { cbn [read_stats app sane]. cbn [drop_held lock_eqb lock_eq_dec fst]. unfold read_score. rewrite <- !app_assoc. cbn [hold_seg fst snd app sane].
      split; [left; reflexivity|]. split; [right; left; reflexivity|].
      rewrite flat_map_concat_map, <- (map_map (fun j => (false, j)) read_seg), <- flat_map_concat_map.
      apply sane_reads; [right; left; reflexivity|]. cbn. rewrite lock_eqb_refl. reflexivity. }
    destruct cold; exact G.
  - assert (G : sane [(LSegs, false)]
      (read_stats ++ flat_map read_window ks ++ unload false)).
    { cbn [read_stats app sane]. cbn [drop_held lock_eqb lock_eq_dec fst]. cbn. induction ks as [|k ks IH]; [reflexivity|].
      cbn [flat_map]. rewrite <- app_assoc. unfold read_window at 1. rewrite <- !app_assoc. cbn.
      apply sane_reads; [left; reflexivity|]. exact (IH eq_refl). }
    destruct cold; exact G.
  - assert (G : forall w, w = negb (shared o) ->
        sane [(LSegs, w); (LUpdate, true)] ([Work o] ++ flat_map read_seg ks ++ unload true)).
    { intros w Hw. cbn [app sane]. split; [|split].
      - destruct (shared o); [split; [left; reflexivity|right; left; reflexivity]|rewrite Hw; left; reflexivity].
      - intros k [<-|[<-|[]]]; reflexivity.
      - apply sane_reads; [left; reflexivity|]. reflexivity. }
    specialize (G _ eq_refl). destruct cold, (shared o); exact G.
  - cbn in Hok. cbn [app sane]. destruct (shared o); [discriminate|]. split; [left; reflexivity|]. split; [|reflexivity].
    intros k [<-|[<-|[]]]; reflexivity.
  - cbn [app sane shared]. split; [left; reflexivity|]. split; [|reflexivity].
    intros k [<-|[<-|[]]]; reflexivity.
  - assert (G : sane [(LSegs, false); (LUpdate, true)] (read_stats ++ flat_map read_seg ks ++ unload true)).
    { cbn [read_stats app sane drop_held]. cbn. apply sane_reads; [left; reflexivity|]. reflexivity. }
    destruct cold; exact G.
Qed.
