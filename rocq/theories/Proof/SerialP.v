(** Calls running at the same time take effect one after the other. *)
From Verif.Lib Require Import Prelude ListAux ListLemmas.
From Verif.Model Require Import Element Elements Segment List Locks.
From Verif.Spec Require Import LockSpec.
From Verif.Proof Require Import ChangeP LocksP.
Open Scope nat_scope.

Lemma run_snoc : forall ops l o, run l (ops ++ [o]) = match run l ops with Done l' => step l' o | x => x end.
Proof.
  induction ops as [|a ops IH]; intros l o; cbn [app run].
  - destruct (step l o); reflexivity.
  - destruct (step l a); [apply IH|reflexivity|reflexivity|reflexivity].
Qed.

(** ** Cells *)
Lemma seg_of_set b b' i s l : seg_of b i (set_side b' s l) = if Bool.eqb b b' then nth_error s i else seg_of b i l.
Proof. destruct b, b'; reflexivity. Qed.
Lemma side_set b b' s l : ss_segs (side b (set_side b' s l)) = if Bool.eqb b b' then s else ss_segs (side b l).
Proof. destruct b, b'; reflexivity. Qed.
Lemma put_len k src dst b : is_cell k = true -> length (ss_segs (side b (put k src dst))) = length (ss_segs (side b dst)).
Proof.
  destruct k as [| | |b' i|]; cbn [is_cell]; try discriminate; intros _; cbn [put].
  - destruct (seg_of b' i src); [|reflexivity]. rewrite side_set. destruct (Bool.eqb b b') eqn:E; [|reflexivity].
    apply eqb_prop in E as ->. apply upd_nth_length.
  - destruct b; reflexivity.
Qed.
Lemma put_other k src dst b i : is_cell k = true -> k <> LSeg b i -> seg_of b i (put k src dst) = seg_of b i dst.
Proof.
  destruct k as [| | |b' j|]; cbn [is_cell]; try discriminate; intros _ N; cbn [put].
  - destruct (seg_of b' j src); [|reflexivity]. rewrite seg_of_set. destruct (Bool.eqb b b') eqn:E; [|reflexivity].
    apply eqb_prop in E as ->. rewrite nth_upd_other; [reflexivity|]. congruence.
  - destruct b; reflexivity.
Qed.
Lemma put_same src dst b i : length (ss_segs (side b dst)) = length (ss_segs (side b src)) ->
  seg_of b i (put (LSeg b i) src dst) = seg_of b i src.
Proof.
  intros L. cbn [put]. destruct (seg_of b i src) as [s|] eqn:E.
  - rewrite seg_of_set, eqb_reflx, nth_upd, Nat.eqb_refl.
    destruct (nth_error (ss_segs (side b dst)) i) eqn:E2; [reflexivity|].
    apply nth_error_None in E2. assert (i < length (ss_segs (side b src))) by (apply nth_error_Some; unfold seg_of in E; congruence). lia.
  - unfold seg_of in *. apply nth_error_None in E. apply nth_error_None. lia.
Qed.
(** the part that SegmentsLock guards *)
Definition framed (a b : lst) : Prop := put LStats a b = b.
Lemma framed_put_seg a b bb i src : framed a b -> framed a (put (LSeg bb i) src b).
Proof.
  unfold framed. intros H. cbn [put]. destruct (seg_of bb i src) as [s|]; [|exact H].
  destruct a as [am asp asi aii [a1 a2 a3 a4 a5] [a6 a7 a8 a9 a10]].
  destruct b as [bm bsp bsi bii [b1 b2 b3 b4 b5] [b6 b7 b8 b9 b10]].
  cbn in H. injection H as -> -> -> -> -> -> -> -> -> -> -> ->. destruct bb; reflexivity.
Qed.
Lemma framed_put a b : framed a (put LStats a b).
Proof. reflexivity. Qed.
Lemma framed_refl a : framed a a.
Proof. unfold framed. destruct a as [am asp asi aii [a1 a2 a3 a4 a5] [a6 a7 a8 a9 a10]]. reflexivity. Qed.
Lemma nth_ext_eq {A} : forall a b : list A, (forall i, nth_error a i = nth_error b i) -> a = b.
Proof.
  induction a as [|x a IH]; intros [|y b] H; [reflexivity|discriminate (H 0)|discriminate (H 0)|].
  pose proof (H 0) as E. cbn in E. injection E as ->. f_equal. apply IH. intros i. apply (H (S i)).
Qed.
Lemma cells_eq cur new : framed new cur -> (forall b i, seg_of b i cur = seg_of b i new) -> cur = new.
Proof.
  intros F H. assert (A : forall b, ss_segs (side b cur) = ss_segs (side b new)).
  { intros b. apply nth_ext_eq. intros i. apply H. }
  pose proof (A false) as A1. pose proof (A true) as A2. unfold framed in F. rewrite <- F.
  destruct new as [am asp asi aii [a1 a2 a3 a4 a5] [a6 a7 a8 a9 a10]].
  cbn in A1, A2. cbn. rewrite A1, A2. reflexivity.
Qed.

Lemma puts_app a b : puts (a ++ b) = puts a ++ puts b.
Proof. unfold puts. apply flat_map_app. Qed.
Lemma put_all_len ks : forall src dst b, (forall k, In k ks -> is_cell k = true) ->
  length (ss_segs (side b (put_all ks src dst))) = length (ss_segs (side b dst)).
Proof.
  induction ks as [|k ks IH]; intros src dst b H; [reflexivity|]. cbn. fold (put_all ks src (put k src dst)).
  rewrite IH by (intros; apply H; right; assumption). apply put_len, H. left. reflexivity.
Qed.
Lemma put_all_other ks : forall src dst b i, (forall k, In k ks -> is_cell k = true) -> ~ In (LSeg b i) ks ->
  seg_of b i (put_all ks src dst) = seg_of b i dst.
Proof.
  induction ks as [|k ks IH]; intros src dst b i H N; [reflexivity|]. cbn. fold (put_all ks src (put k src dst)).
  rewrite IH; [|intros; apply H; right; assumption|intros C; apply N; right; exact C].
  apply put_other; [apply H; left; reflexivity|]. intros ->. apply N. left. reflexivity.
Qed.
Lemma put_all_frame ks : forall a src dst, (forall k, In k ks -> is_cell k = true) -> ~ In LStats ks ->
  put LStats a (put_all ks src dst) = put_all ks src dst -> framed a dst.
Proof.
  induction ks as [|k ks IH]; intros a src dst H N E; [exact E|]. cbn in E. fold (put_all ks src (put k src dst)) in E.
  apply IH in E; [|intros; apply H; right; assumption|intros C; apply N; right; exact C].
  assert (Hk : is_cell k = true) by (apply H; left; reflexivity).
  destruct k as [| | |b i|]; try discriminate Hk.
  - cbn [put] in E. destruct (seg_of b i src) as [s|]; [|exact E]. unfold framed in *.
    destruct a as [am asp asi aii [a1 a2 a3 a4 a5] [a6 a7 a8 a9 a10]].
    destruct dst as [bm bsp bsi bii [b1 b2 b3 b4 b5] [b6 b7 b8 b9 b10]].
    destruct b; cbn in E; injection E as -> -> -> -> -> -> -> -> -> -> -> ->; reflexivity.
  - destruct N. left. reflexivity.
Qed.

(** ** A list that is being changed *)
Record mix (cur prev new : lst) (todo dirty : list lock) : Prop := {
  mx_len : forall b, length (ss_segs (side b cur)) = length (ss_segs (side b new));
  mx_out : forall b i, ~ In (LSeg b i) todo -> seg_of b i cur = seg_of b i new;
  mx_frame : ~ In LStats todo -> framed new cur;
  mx_old : forall b i, ~ In (LSeg b i) dirty -> seg_of b i cur = seg_of b i prev \/ seg_of b i cur = seg_of b i new
}.
Lemma mix_done cur prev new dirty : mix cur prev new [] dirty -> cur = new.
Proof. intros [_ H F _]. apply cells_eq; [apply F; intros []|intros b i; apply H; intros []]. Qed.
Lemma mix_start cur new todo : (forall k, In k todo -> is_cell k = true) -> put_all todo new cur = new ->
  mix cur cur new todo [].
Proof.
  intros Hc E. constructor.
  - intros b. rewrite <- (put_all_len todo new cur b Hc). rewrite E. reflexivity.
  - intros b i N. rewrite <- (put_all_other todo new cur b i Hc N), E. reflexivity.
  - intros N. apply (put_all_frame todo new new cur Hc N). rewrite E. apply framed_refl.
  - auto.
Qed.
Lemma mix_dirty cur prev new todo dirty k g : mix cur prev new todo dirty -> is_cell k = true -> In k todo ->
  mix (put k g cur) prev new todo (k :: dirty).
Proof.
  intros [L O F Old] Hk Hin. constructor.
  - intros b. rewrite put_len by exact Hk. apply L.
  - intros b i N. rewrite put_other; [apply O, N|exact Hk|]. intros ->. auto.
  - intros N. specialize (F N). destruct k as [| | |bb i|]; try discriminate Hk; [apply framed_put_seg, F|contradiction].
  - intros b i N. rewrite put_other; [apply Old|exact Hk|]; [intros C; apply N; right; exact C|].
    intros ->. apply N. left. reflexivity.
Qed.
Lemma drop_lock_In k x l : In x (drop_lock k l) <-> In x l /\ x <> k.
Proof.
  unfold drop_lock. rewrite filter_In. split; intros (A & B); split; auto.
  - intros ->. rewrite lock_eqb_refl in B. discriminate.
  - apply negb_true_iff, lock_eqb_false. congruence.
Qed.
Lemma mix_put cur prev new todo dirty k : mix cur prev new (k :: todo) dirty -> is_cell k = true ->
  mix (put k new cur) prev new todo (drop_lock k dirty).
Proof.
  intros [L O F Old] Hk. constructor.
  - intros b. rewrite put_len by exact Hk. apply L.
  - intros b i N. destruct (lock_eq_dec k (LSeg b i)) as [->|Ne]; [apply put_same, L|].
    rewrite put_other by assumption. apply O. intros [C|C]; [congruence|auto].
  - intros N. destruct k as [| | |bb i|]; try discriminate Hk.
    + apply framed_put_seg, F. intros [C|C]; [discriminate|auto].
    + apply framed_put.
  - intros b i N. destruct (lock_eq_dec k (LSeg b i)) as [->|Ne]; [right; apply put_same, L|].
    rewrite put_other by assumption. apply Old. intros C. apply N, drop_lock_In. auto.
Qed.

(** ** Threads that are writing *)
Definition wr (hs : list lock) : list (lock * bool) := map (fun k => (k, true)) hs.

Lemma plan_cells : forall p hs d, plan_ok hs d p = true -> (forall k, In k hs -> is_cell k = true) ->
  forall k, In k (puts p) -> is_cell k = true.
Proof.
  induction p as [|[k [|]|k|b i|o|k|k] p IH]; intros hs d H Hh x Hx; cbn [plan_ok] in H; try discriminate H;
    rewrite ?andb_true_iff in H.
  - destruct Hx.
  - destruct H as (((Hc & _) & _) & H). eapply IH; [exact H| |exact Hx]. intros y [<-|Hy]; auto.
  - destruct H as ((_ & _) & H). eapply IH; [exact H| |exact Hx]. intros y Hy. apply drop_lock_In in Hy as (Hy & _). auto.
  - destruct H as (_ & H). eapply IH; [exact H|exact Hh|exact Hx].
  - destruct H as (Hm & H). destruct Hx as [<-|Hx]; [apply Hh, mem_lock_In, Hm|]. eapply IH; [exact H|exact Hh|exact Hx].
Qed.
Lemma plan_dirty : forall p hs d, plan_ok hs d p = true -> incl d (puts p).
Proof.
  induction p as [|[k [|]|k|b i|o|k|k] p IH]; intros hs d H x Hx; cbn [plan_ok] in H; try discriminate H;
    rewrite ?andb_true_iff in H.
  - destruct H as (_ & H). destruct d; [destruct Hx|discriminate].
  - destruct H as (_ & H). exact (IH _ _ H x Hx).
  - destruct H as (_ & H). exact (IH _ _ H x Hx).
  - destruct H as (_ & H). exact (IH _ _ H x (or_intror Hx)).
  - destruct H as (_ & H). cbn. destruct (lock_eq_dec k x) as [->|N]; [left; reflexivity|]. right.
    apply (IH _ _ H x), drop_lock_In. auto.
Qed.

Record writing (th : thread) (p : list act) (hs d : list lock) : Prop := {
  wg_h : exists h r, t_prog th = p ++ r /\ t_held th = wr hs ++ h /\ In LSegs (map fst h) /\ In (LUpdate, true) h /\
                     (forall k, In k (map fst h) -> is_cell k = false) /\ sane h r;
  wg_ok : plan_ok hs d p = true;
  wg_nd : NoDup hs;
  wg_d : incl d hs;
  wg_c : forall k, In k hs -> is_cell k = true
}.
Record rewriting (th : thread) : Prop := {
  rw_h : exists r, (t_prog th = Dirty LSegs :: Put LSegs :: r \/ t_prog th = Put LSegs :: r) /\
                   In (LSegs, true) (t_held th) /\ sane (t_held th) r
}.
Definition idle (th : thread) : Prop := sane (t_held th) (t_prog th).

Lemma writing_locks th p hs d : writing th p hs d -> In LSegs (map fst (t_held th)) /\ In (LUpdate, true) (t_held th).
Proof.
  intros [(h & r & _ & -> & A & B & _) _ _ _ _]. rewrite map_app. split; apply in_or_app; auto.
Qed.
Lemma drop_wr k : forall hs h h', NoDup hs -> In k hs -> drop_held k (wr hs ++ h) = Some h' -> h' = wr (drop_lock k hs) ++ h.
Proof.
  induction hs as [|x hs IH]; intros h h' Nd Hk E; [destruct Hk|]. inversion Nd as [|? ? Nx Nd']; subst.
  cbn in E |- *. destruct (lock_eqb k x) eqn:Ex.
  - injection E as <-. apply lock_eqb_true in Ex as <-. f_equal. unfold wr. f_equal.
    symmetry. unfold drop_lock. clear IH Nd Hk Nd'. induction hs as [|y hs IH]; [reflexivity|]. cbn.
    destruct (lock_eqb k y) eqn:Ey; [apply lock_eqb_true in Ey as <-; destruct Nx; left; reflexivity|].
    cbn. f_equal. apply IH. intros C. apply Nx. right. exact C.
  - destruct Hk as [->|Hk]; [rewrite lock_eqb_refl in Ex; discriminate|].
    fold (wr hs) in E. destruct (drop_held k (wr hs ++ h)) as [r|] eqn:Er; [|discriminate]. injection E as <-.
    rewrite (IH h r Nd' Hk Er). reflexivity.
Qed.
Lemma drop_nodup k hs : NoDup hs -> NoDup (drop_lock k hs).
Proof. apply NoDup_filter. Qed.

(** one step of a thread that is writing *)
Lemma writing_step c t th th' cur log p hs d prev :
  writing th p hs d -> p <> [] -> tmove c t th th' cur log -> mix (c_cur c) prev (t_new th) (puts p) d ->
  log = c_log c /\ t_new th' = t_new th /\ t_got th' = t_got th /\
  exists p' hs' d', writing th' p' hs' d' /\ mix cur prev (t_new th') (puts p') d'.
Proof.
  intros [(h & r & Ep & Eh & A1 & A2 & A3 & A4) Hok Nd Hd Hc] Hp M HM.
  destruct p as [|a p]; [congruence|]. cbn [app] in Ep. clear Hp.
  destruct M as [k r0 E Ea Ew Er|k r0 E Ea Ew Eq|k r0 E Ew Eq|k r0 h0 E Eh0|b i r0 E|o r0 new pl E Es Epl|k r0 g E|k r0 E];
    rewrite Ep in E; injection E as -> <-; cbn [plan_ok] in Hok; try discriminate Hok; rewrite ?andb_true_iff in Hok;
    (split; [reflexivity|split; [reflexivity|split; [reflexivity|]]]).
  - destruct Hok as (((Hk & Hn) & _) & Hok). apply negb_true_iff, mem_lock_not in Hn. exists p, (k :: hs), d. split; [|exact HM].
    constructor; [|exact Hok|constructor; assumption|intros x Hx; right; auto|intros x [<-|Hx]; auto].
    exists h, r. cbn. rewrite Eh. auto 6.
  - exists (Acq k true :: p), hs, d. split; [|exact HM].
    constructor; [|cbn [plan_ok]; rewrite !andb_true_iff; exact Hok|exact Nd|exact Hd|exact Hc].
    exists h, r. cbn. rewrite Eh. auto 6.
  - destruct Hok as ((Hk & Hn) & Hok). apply mem_lock_In in Hk. apply negb_true_iff, mem_lock_not in Hn.
    exists p, (drop_lock k hs), d. split; [|exact HM].
    rewrite Eh in Eh0. apply drop_wr in Eh0; [|exact Nd|exact Hk].
    constructor; [|exact Hok|apply drop_nodup, Nd| |].
    + exists h, r. cbn. rewrite Eh0. auto 6.
    + intros x Hx. apply drop_lock_In. split; [auto|]. intros ->. auto.
    + intros x Hx. apply drop_lock_In in Hx as (Hx & _). auto.
  - destruct Hok as (Hk & Hok). apply mem_lock_In in Hk. exists p, hs, (k :: d).
    pose proof (plan_dirty _ _ _ Hok k (or_introl eq_refl)) as Hin. split.
    + constructor; [|exact Hok|exact Nd|intros x [<-|Hx]; auto|exact Hc]. exists h, r. cbn. rewrite Eh. auto 6.
    + apply mix_dirty; [exact HM|auto|exact Hin].
  - destruct Hok as (Hk & Hok). apply mem_lock_In in Hk. exists p, hs, (drop_lock k d). split.
    + constructor; [|exact Hok|exact Nd|intros x Hx; apply drop_lock_In in Hx as (Hx & _); auto|exact Hc].
      exists h, r. cbn. rewrite Eh. auto 6.
    + apply mix_put; [exact HM|auto].
Qed.
Lemma writing_end th hs d : writing th [] hs d -> idle th /\ d = [].
Proof.
  intros [(h & r & Ep & Eh & A1 & A2 & A3 & A4) Hok Nd Hd Hc]. cbn in Hok. apply andb_true_iff in Hok as (H1 & H2).
  destruct hs; [|discriminate]. destruct d; [|discriminate]. split; [|reflexivity].
  unfold idle. rewrite Ep, Eh. exact A4.
Qed.

(** one step of a thread that is not writing *)
Inductive istep (c : conf) (t : nat) (th th' : thread) (cur : lst) (log : list (nat * op)) : Prop :=
| I_quiet : idle th' -> cur = c_cur c -> log = c_log c ->
    (t_got th' = t_got th \/ exists b i, t_got th' = t_got th ++ [(length (c_log c), (b, i), seg_of b i (c_cur c))] /\
       In (LSeg b i) (map fst (t_held th)) /\ In LSegs (map fst (t_held th))) -> istep c t th th' cur log
| I_work o : cur = c_cur c -> log = c_log c ++ [(t, o)] -> step cur o = Done (t_new th') -> t_held th' = t_held th ->
    t_got th' = t_got th ->
    ((In LSegs (map fst (t_held th)) /\ In (LUpdate, true) (t_held th) /\
      (exists p, writing th' p [] [] /\ mix cur cur (t_new th') (puts p) [])) \/
     (In (LSegs, true) (t_held th) /\ rewriting th')) -> istep c t th th' cur log.

Lemma idle_step c t th th' cur log : idle th -> tmove c t th th' cur log -> istep c t th th' cur log.
Proof.
  unfold idle. intros H M.
  destruct M as [k r E Ea Ew Er|k r E Ea Ew Eq|k r E Ew Eq|k r h0 E Eh0|b i r E|o r new p E Es Epl|k r g E|k r E];
    rewrite E in H; cbn [sane] in H.
  - apply I_quiet; auto.
  - apply I_quiet; auto. unfold idle. cbn. rewrite E. exact H.
  - apply I_quiet; auto.
  - apply I_quiet; auto. unfold idle. cbn. rewrite Eh0 in H. exact H.
  - destruct H as (A & B & H). apply I_quiet; auto. right. exists b, i. auto.
  - destruct H as (A & B & H). unfold plan_for in Epl.
    apply I_work with (o := o); auto. destruct (shared o) eqn:Eo.
    + left. destruct A as (A1 & A2). split; [exact A1|split; [exact A2|]]. apply andb_true_iff in Epl as (Hok & Hp).
      destruct (lst_eq_dec (put_all (puts p) new (c_cur c)) new) as [Ep|]; [|discriminate].
      exists p. split.
      * constructor; [|exact Hok|constructor|intros x []|intros x []].
        exists (t_held th), r. cbn. auto 6.
      * apply mix_start; [|exact Ep]. apply (plan_cells p [] [] Hok). intros k [].
    + right. split; [exact A|]. constructor. cbn.
      destruct p as [|[| | | |[]|] [|[| | | | |[]] [|]]]; try discriminate Epl. exists r. auto.
  - destruct H.
  - destruct H.
Qed.
Lemma rewriting_step c t th th' cur log : rewriting th -> tmove c t th th' cur log ->
  log = c_log c /\ t_new th' = t_new th /\ t_got th' = t_got th /\
  (rewriting th' \/ (idle th' /\ cur = t_new th')).
Proof.
  intros [(r & Ep & A & B)] M.
  destruct M as [k r0 E Ea Ew Er|k r0 E Ea Ew Eq|k r0 E Ew Eq|k r0 h0 E Eh0|b i r0 E|o r0 new p E Es Epl|k r0 g E|k r0 E];
    destruct Ep as [Ep|Ep]; rewrite Ep in E; try discriminate E; injection E as <- <-;
    (split; [reflexivity|split; [reflexivity|split; [reflexivity|]]]).
  - left. constructor. exists r. cbn. auto.
  - right. split; [exact B|reflexivity].
Qed.

(** ** The invariant *)
Definition good_got (l : lst) (log : list (nat * op)) (e : nat * (bool * nat) * option seg) : Prop :=
  let '(n, (b, i), v) := e in
  n <= length log /\ exists l', v = seg_of b i l' /\
    (run l (firstn n (map snd log)) = Done l' \/ run l (firstn (n - 1) (map snd log)) = Done l').
Lemma good_got_more l log x e : good_got l log e -> good_got l (log ++ [x]) e.
Proof.
  destruct e as ((n & (b & i)) & v). intros (H & l' & E & R). cbn. rewrite app_length, map_app. cbn.
  split; [lia|]. exists l'. split; [exact E|].
  rewrite !firstn_app, !map_length. replace (n - length log) with 0 by lia. replace (n - 1 - length log) with 0 by lia.
  cbn. rewrite !app_nil_r. exact R.
Qed.

Definition others (c : conf) (t : nat) (P : thread -> Prop) : Prop :=
  forall u th, u <> t -> nth_error (c_threads c) u = Some th -> P th.
Inductive phase (l : lst) (c : conf) : Prop :=
| P_idle : (forall u th, nth_error (c_threads c) u = Some th -> idle th) ->
    run l (done_ops c) = Done (c_cur c) -> phase l c
| P_write t th prev o log0 p hs d : nth_error (c_threads c) t = Some th -> others c t idle ->
    c_log c = log0 ++ [(t, o)] -> run l (map snd log0) = Done prev -> step prev o = Done (t_new th) ->
    writing th p hs d -> mix (c_cur c) prev (t_new th) (puts p) d -> phase l c
| P_rewrite t th prev o log0 : nth_error (c_threads c) t = Some th -> others c t idle ->
    c_log c = log0 ++ [(t, o)] -> run l (map snd log0) = Done prev -> step prev o = Done (t_new th) ->
    rewriting th -> phase l c.
Record sinv (l : lst) (c : conf) : Prop := {
  si_ex : excl (c_threads c);
  si_ph : phase l c;
  si_got : forall t th, nth_error (c_threads c) t = Some th -> Forall (good_got l (c_log c)) (t_got th)
}.

Lemma sinv_start l xs : Forall (fun x => call_ok x = true) xs -> sinv l (start l xs).
Proof.
  intros H. constructor.
  - apply excl_start.
  - apply P_idle; [|reflexivity]. intros u th Hu. apply start_held in Hu as (x & Hx & ->).
    apply nth_error_In in Hx. rewrite Forall_forall in H. apply sane_call, H, Hx.
  - intros t th Hu. apply start_held in Hu as (x & Hx & ->). constructor.
Qed.

Lemma at_upd {A} (ths : list A) t th th' u x : nth_error ths t = Some th ->
  nth_error (upd_nth t (fun _ => th') ths) u = Some x -> (u = t /\ x = th') \/ (u <> t /\ nth_error ths u = Some x).
Proof.
  intros Ht. rewrite nth_upd. destruct (t =? u) eqn:E.
  - apply Nat.eqb_eq in E as <-. rewrite Ht. cbn. intros X. injection X as <-. auto.
  - apply Nat.eqb_neq in E. auto.
Qed.
Lemma run_at l (log0 : list (nat * op)) t o prev new : run l (map snd log0) = Done prev -> step prev o = Done new ->
  run l (map snd (log0 ++ [(t, o)])) = Done new.
Proof. intros A B. rewrite map_app. cbn. rewrite run_snoc, A. exact B. Qed.

Lemma phase_move l c t th th' cur log : excl (c_threads c) -> phase l c ->
  nth_error (c_threads c) t = Some th -> tmove c t th th' cur log ->
  phase l (mkC cur (upd_nth t (fun _ => th') (c_threads c)) log).
Proof.
  intros HE HP Ht M. destruct HP as [Hi HR|u thu prev o log0 p hs d Hu Ho El ER Es HW HM|u thu prev o log0 Hu Ho El ER Es HW].
  - destruct (idle_step _ _ _ _ _ _ (Hi _ _ Ht) M) as [A B C _|o A B C D _ E].
    + subst. apply P_idle; [|exact HR]. cbn. intros u x Hx. apply (at_upd _ _ _ _ _ _ Ht) in Hx as [(-> & ->)|(_ & Hx)]; eauto.
    + subst. destruct E as [(_ & _ & p & HW & HM)|(_ & HW)].
      * eapply P_write with (t := t) (th := th') (o := o) (log0 := c_log c); cbn; [eapply nth_upd_same, Ht| |reflexivity|exact HR|exact C|exact HW|exact HM].
        intros u x Nu Hx. cbn in Hx. apply (at_upd _ _ _ _ _ _ Ht) in Hx as [(-> & ->)|(_ & Hx)]; [congruence|eauto].
      * eapply P_rewrite with (t := t) (th := th') (o := o) (log0 := c_log c); cbn; [eapply nth_upd_same, Ht| |reflexivity|exact HR|exact C|exact HW].
        intros u x Nu Hx. cbn in Hx. apply (at_upd _ _ _ _ _ _ Ht) in Hx as [(-> & ->)|(_ & Hx)]; [congruence|eauto].
  - destruct (Nat.eq_dec t u) as [->|Nt].
    + assert (thu = th) by congruence. subst thu. destruct p as [|a p].
      * (* nothing left to write: the thread is idle again *)
        apply writing_end in HW as (HW & ->). apply mix_done in HM.
        assert (HR : run l (done_ops c) = Done (c_cur c)).
        { unfold done_ops. rewrite El, HM. eapply run_at; eassumption. }
        assert (Hi : forall v x, nth_error (c_threads c) v = Some x -> idle x).
        { intros v x Hx. destruct (Nat.eq_dec v u) as [->|N]; [congruence|]. eapply Ho; eassumption. }
        destruct (idle_step _ _ _ _ _ _ HW M) as [A B C _|o' A B C D _ E].
        -- subst. apply P_idle; [|exact HR]. cbn. intros v x Hx.
           apply (at_upd _ _ _ _ _ _ Ht) in Hx as [(-> & ->)|(_ & Hx)]; eauto.
        -- subst cur log. destruct E as [(_ & _ & p & HW' & HM')|(_ & HW')].
           ++ eapply P_write with (t := u) (th := th') (o := o') (log0 := c_log c); cbn; [eapply nth_upd_same, Ht| |reflexivity|exact HR|exact C|exact HW'|exact HM'].
              intros v x Nu Hx. cbn in Hx. apply (at_upd _ _ _ _ _ _ Ht) in Hx as [(-> & ->)|(_ & Hx)]; [congruence|eauto].
           ++ eapply P_rewrite with (t := u) (th := th') (o := o') (log0 := c_log c); cbn; [eapply nth_upd_same, Ht| |reflexivity|exact HR|exact C|exact HW'].
              intros v x Nu Hx. cbn in Hx. apply (at_upd _ _ _ _ _ _ Ht) in Hx as [(-> & ->)|(_ & Hx)]; [congruence|eauto].
      * destruct (writing_step _ _ _ _ _ _ _ _ _ _ HW ltac:(discriminate) M HM) as (-> & En & _ & p' & hs' & d' & HW' & HM').
        eapply P_write with (t := u) (th := th') (o := o) (log0 := log0) (prev := prev); cbn;
          [eapply nth_upd_same, Ht| |exact El|exact ER|rewrite En; exact Es|exact HW'|exact HM'].
        intros v x Nu Hx. cbn in Hx. apply (at_upd _ _ _ _ _ _ Ht) in Hx as [(-> & ->)|(_ & Hx)]; [congruence|eauto].
    + destruct (idle_step _ _ _ _ _ _ (Ho _ _ Nt Ht) M) as [A B C _|o' A B C D _ E].
      * subst. eapply P_write with (t := u) (th := thu) (o := o) (log0 := log0) (prev := prev); cbn;
          [rewrite nth_upd_other by exact Nt; exact Hu| |exact El|exact ER|exact Es|exact HW|exact HM].
        intros v x Nu Hx. cbn in Hx. apply (at_upd _ _ _ _ _ _ Ht) in Hx as [(-> & ->)|(_ & Hx)]; [exact A|eauto].
      * exfalso. pose proof (writing_locks _ _ _ _ HW) as (W1 & W2). destruct E as [(_ & A2 & _)|(A1 & _)].
        -- exact (excl_two _ _ _ _ _ _ _ HE Nt Ht Hu A2 W2).
        -- apply in_map_iff in W1 as ((k & w) & Ek & W1). cbn in Ek. subst k. exact (excl_two _ _ _ _ _ _ _ HE Nt Ht Hu A1 W1).
  - destruct (Nat.eq_dec t u) as [->|Nt].
    + assert (thu = th) by congruence. subst thu.
      destruct (rewriting_step _ _ _ _ _ _ HW M) as (-> & En & _ & [HW'|(HW' & Ec)]).
      * eapply P_rewrite with (t := u) (th := th') (o := o) (log0 := log0) (prev := prev); cbn;
          [eapply nth_upd_same, Ht| |exact El|exact ER|rewrite En; exact Es|exact HW'].
        intros v x Nu Hx. cbn in Hx. apply (at_upd _ _ _ _ _ _ Ht) in Hx as [(-> & ->)|(_ & Hx)]; [congruence|eauto].
      * apply P_idle.
        -- cbn. intros v x Hx. apply (at_upd _ _ _ _ _ _ Ht) in Hx as [(-> & ->)|(Nv & Hx)]; [exact HW'|eauto].
        -- unfold done_ops. cbn. rewrite El, Ec, En. eapply run_at; eassumption.
    + destruct HW as [(r & Ep & W1 & Wr)]. destruct (idle_step _ _ _ _ _ _ (Ho _ _ Nt Ht) M) as [A B C _|o' A B C D _ E].
      * subst. eapply P_rewrite with (t := u) (th := thu) (o := o) (log0 := log0) (prev := prev); cbn;
          [rewrite nth_upd_other by exact Nt; exact Hu| |exact El|exact ER|exact Es|constructor; exists r; auto].
        intros v x Nu Hx. cbn in Hx. apply (at_upd _ _ _ _ _ _ Ht) in Hx as [(-> & ->)|(_ & Hx)]; [exact A|eauto].
      * exfalso. assert (A1 : exists w, In (LSegs, w) (t_held th)).
        { destruct E as [(A1 & _)|(A1 & _)]; [|eauto]. apply in_map_iff in A1 as ((k & w) & Ek & A1). cbn in Ek. subst k. eauto. }
        destruct A1 as (w & A1). apply (excl_two _ u t _ _ _ _ HE (not_eq_sym Nt) Hu Ht W1 A1).
Qed.

(** what a reader sees *)
Lemma read_good l c t th b i : excl (c_threads c) -> phase l c -> nth_error (c_threads c) t = Some th -> idle th ->
  In (LSeg b i) (map fst (t_held th)) -> In LSegs (map fst (t_held th)) ->
  good_got l (c_log c) (length (c_log c), (b, i), seg_of b i (c_cur c)).
Proof.
  intros HE HP Ht Hi Hs Hl. split; [lia|].
  assert (Full : firstn (length (c_log c)) (map snd (c_log c)) = map snd (c_log c)).
  { rewrite <- (map_length snd (c_log c)). apply firstn_all. }
  destruct HP as [_ HR|u thu prev o log0 p hs d Hu Ho El ER Es HW HM|u thu prev o log0 Hu Ho El ER Es HW].
  - exists (c_cur c). split; [reflexivity|]. left. rewrite Full. exact HR.
  - assert (Hd : ~ In (LSeg b i) d).
    { intros Hd. destruct HW as [(h & r & Ep & Eh & A1 & A2 & A3 & A4) Hok Nd Hdi Hc].
      destruct (Nat.eq_dec t u) as [->|Nt].
      - assert (thu = th) by congruence. subst thu. destruct p as [|a p].
        + cbn in Hok. apply andb_true_iff in Hok as (_ & Hok). destruct d; [destruct Hd|discriminate].
        + unfold idle in Hi. rewrite Ep, Eh in Hi. clear - Hi Hok Hd Hdi.
          (* a thread that is not writing has no Dirty or Put ahead *)
          assert (G : forall q hs d h, plan_ok hs d q = true -> sane h (q ++ r) -> puts q = []).
          { induction q as [|[k [|]|k|? ?|?|k|k] q IH]; intros hs' d' h' Ho' Hs'; cbn [plan_ok] in Ho'; try discriminate Ho';
              cbn [app sane] in Hs'; rewrite ?andb_true_iff in Ho'.
            - reflexivity.
            - destruct Ho' as (_ & Ho'). exact (IH _ _ _ Ho' Hs').
            - destruct Ho' as (_ & Ho'). destruct (drop_held k h'); [|destruct Hs']. exact (IH _ _ _ Ho' Hs').
            - destruct Hs'.
            - destruct Hs'. }
          pose proof (plan_dirty _ _ _ Hok _ Hd) as C. rewrite (G _ _ _ _ Hok Hi) in C. destruct C.
      - apply in_map_iff in Hs as ((k & w) & Ek & Hs). cbn in Ek. subst k.
        apply (excl_two _ u t _ _ (LSeg b i) w HE (not_eq_sym Nt) Hu Ht); [|exact Hs].
        rewrite Eh. apply in_or_app. left. unfold wr. apply in_map_iff. exists (LSeg b i). auto. }
    destruct (mx_old _ _ _ _ _ HM b i Hd) as [E|E].
    + exists prev. split; [exact E|]. right. rewrite El, app_length, map_app. cbn.
      replace (length log0 + 1 - 1) with (length (map snd log0)) by (rewrite map_length; lia).
      rewrite firstn_app, firstn_all, Nat.sub_diag. cbn. rewrite app_nil_r. exact ER.
    + exists (t_new thu). split; [exact E|]. left. rewrite Full, El. eapply run_at; eassumption.
  - exfalso. destruct HW as [(r & Ep & W1 & Wr)]. destruct (Nat.eq_dec t u) as [->|Nt].
    + assert (thu = th) by congruence. subst thu. unfold idle in Hi. destruct Ep as [Ep|Ep]; rewrite Ep in Hi; exact Hi.
    + apply in_map_iff in Hl as ((k & w) & Ek & Hl). cbn in Ek. subst k.
      apply (excl_two _ u t _ _ _ _ HE (not_eq_sym Nt) Hu Ht W1 Hl).
Qed.

Lemma sinv_move l c t g p c' : sinv l c -> move c t g p = Some c' -> sinv l c'.
Proof.
  intros [HE HP HG] Hm. apply move_inv in Hm as (th & th' & cur & log & Ht & M & ->). constructor; cbn.
  - eapply excl_move; eassumption.
  - eapply phase_move; eassumption.
  - (* how the log and the values read grow *)
    assert (HL : log = c_log c \/ exists x, log = c_log c ++ [x]) by (destruct M; eauto).
    assert (HG' : forall u x, nth_error (c_threads c) u = Some x -> Forall (good_got l log) (t_got x)).
    { intros u x Hx. specialize (HG u x Hx). destruct HL as [->|(y & ->)]; [exact HG|].
      eapply Forall_impl; [|exact HG]. intros a. apply good_got_more. }
    intros u x Hx. apply (at_upd _ _ _ _ _ _ Ht) in Hx as [(-> & ->)|(_ & Hx)]; [|eauto].
    pose proof (HG' _ _ Ht) as G0.
    assert (Hcase : t_got th' = t_got th \/ (exists b i r, t_prog th = Get b i :: r /\ log = c_log c /\
      t_got th' = t_got th ++ [(length (c_log c), (b, i), seg_of b i (c_cur c))])).
    { destruct M; cbn; auto. right. eauto 6. }
    destruct Hcase as [->|(b & i & r & Ep & -> & ->)]; [exact G0|]. apply Forall_app. split; [exact G0|].
    constructor; [|constructor].
    assert (Hidle : idle th /\ In (LSeg b i) (map fst (t_held th)) /\ In LSegs (map fst (t_held th))).
    { assert (Q : forall th, idle th -> t_prog th = Get b i :: r ->
        idle th /\ In (LSeg b i) (map fst (t_held th)) /\ In LSegs (map fst (t_held th))).
      { intros y Hy Ey. split; [exact Hy|]. unfold idle in Hy. rewrite Ey in Hy. cbn in Hy. tauto. }
      destruct HP as [Hi HR|v thu prev o log0 pp hs d Hu Ho El ER Es HW HM|v thu prev o log0 Hu Ho El ER Es HW].
      - eauto.
      - destruct (Nat.eq_dec t v) as [->|Nt]; [|eauto].
        assert (thu = th) by congruence. subst thu. destruct pp as [|a pp].
        + apply writing_end in HW as (HW & _). eauto.
        + destruct HW as [(h & r0 & Ep0 & _) Hok _ _ _]. rewrite Ep in Ep0. injection Ep0 as <- _. discriminate Hok.
      - destruct (Nat.eq_dec t v) as [->|Nt]; [|eauto].
        assert (thu = th) by congruence. subst thu. destruct HW as [(r0 & Ep0 & _)].
        destruct Ep0 as [Ep0|Ep0]; rewrite Ep in Ep0; discriminate Ep0. }
    destruct Hidle as (Hi & Hs & Hl). eapply read_good; eassumption.
Qed.
Lemma sinv_reach l xs c : Forall (fun x => call_ok x = true) xs -> reaches l xs c -> sinv l c.
Proof.
  intros H (s & Hs). eapply (moves_ind (sinv l)); [|intros; eapply sinv_move; eassumption|exact Hs].
  apply sinv_start, H.
Qed.
