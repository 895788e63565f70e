(** Final forms of the statements about concurrent calls. *)
From Coq Require Import Sorting.Permutation.
From Verif.Lib Require Import Prelude ListAux ListLemmas.
From Verif.Model Require Import Element Elements Segment List Locks.
From Verif.Spec Require Import RankSpec QuerySpec HistorySpec LockSpec.
From Verif.Proof Require Import ChangeP HistoryP LocksP SerialP DeadlockP.
Open Scope nat_scope.

(** ** Every modifying call takes effect once *)
Definition works (p : list act) : list op := flat_map (fun a => match a with Work o => [o] | _ => [] end) p.
Lemma works_app a b : works (a ++ b) = works a ++ works b.
Proof. apply flat_map_app. Qed.
Lemma works_flat {A} (f : A -> list act) l : (forall x, works (f x) = []) -> works (flat_map f l) = [].
Proof. intros H. induction l as [|x l IH]; [reflexivity|]. cbn. rewrite works_app, H. exact IH. Qed.
Lemma works_load cold u w : works (load cold u w) = [].
Proof. destruct cold, u, w; reflexivity. Qed.
Lemma works_unload u : works (unload u) = [].
Proof. destruct u; reflexivity. Qed.
Lemma works_call x : works (prog_of x) = op_of x.
Proof.
  assert (R : forall ks, works (flat_map read_seg ks) = []) by (intros; apply works_flat; reflexivity).
  assert (H : forall js, works (flat_map (fun j => hold_seg (false, j)) js) = []) by (intros; apply works_flat; reflexivity).
  assert (F : forall js, works (flat_map (fun j => free_seg (false, j)) js) = []) by (intros; apply works_flat; reflexivity).
  assert (W : forall js, works (flat_map read_window js) = []).
  { intros. apply works_flat. intros k. unfold read_window. rewrite !works_app, works_load, works_unload, R. reflexivity. }
  assert (R' : forall js, works (flat_map (fun j => read_seg (false, j)) js) = []) by (intros; apply works_flat; reflexivity).
  destruct x; cbn [prog_of op_of]; unfold read_around, read_score;
    rewrite ?works_app, ?works_load, ?works_unload, ?R, ?H, ?F, ?W, ?R'; reflexivity.
Qed.
Lemma plan_works o cur new p : plan_for o cur new p = true -> works p = [].
Proof.
  unfold plan_for. destruct (shared o).
  - intros H. apply andb_true_iff in H as (H & _). revert H. generalize (@nil lock) at 1 as hs. generalize (@nil lock) as d.
    induction p as [|[k [|]|k|b i|o'|k|k] p IH]; intros d hs H; cbn [plan_ok] in H; try discriminate H; [reflexivity| | | |];
      rewrite ?andb_true_iff in H; destruct H as (_ & H); exact (IH _ _ H).
  - destruct p as [|[| | | |[]|] [|[| | | | |[]] [|]]]; try discriminate; reflexivity.
Qed.

Record opsinv (xs : list call) (c : conf) : Prop := {
  oi_len : length (c_threads c) = length xs;
  oi_ops : forall t x th, nth_error xs t = Some x -> nth_error (c_threads c) t = Some th ->
    ops_by t c ++ works (t_prog th) = op_of x;
  oi_log : forall e, In e (c_log c) -> fst e < length xs
}.
Lemma ops_by_snoc t u o cur ths ths' log :
  ops_by t (mkC cur ths (log ++ [(u, o)])) = ops_by t (mkC cur ths' log) ++ (if u =? t then [o] else []).
Proof. unfold ops_by. cbn. rewrite filter_app, map_app. cbn. destruct (u =? t); reflexivity. Qed.
Lemma opsinv_reach l xs c : reaches l xs c -> opsinv xs c.
Proof.
  intros (s & Hs). eapply (moves_ind (opsinv xs)); [| |exact Hs].
  - constructor; cbn.
    + apply map_length.
    + intros t x th Hx Ht. rewrite nth_error_map, Hx in Ht. cbn in Ht. injection Ht as <-. apply works_call.
    + intros e [].
  - intros c1 t g p c2 [L O B] Hm. apply move_inv in Hm as (th & th' & cur & log & Ht & M & ->). 
    assert (Hlt : t < length xs) by (rewrite <- L; apply nth_error_Some; congruence).
    assert (Hcase : (log = c_log c1 /\ works (t_prog th') = works (t_prog th)) \/
       exists o, log = c_log c1 ++ [(t, o)] /\ works (t_prog th) = o :: works (t_prog th')).
    { destruct M as [k r E Ea Ew Er|k r E Ea Ew Eq|k r E Ew Eq|k r h0 E Eh0|b i r E|o r new pl E Es Epl|k r g0 E|k r E];
        try (left; split; [reflexivity|]; cbn; rewrite ?E; reflexivity).
      right. exists o. split; [reflexivity|]. cbn [t_prog]. rewrite E, works_app, (plan_works _ _ _ _ Epl). reflexivity. }
    constructor; cbn [c_threads c_log c_cur].
    + rewrite upd_nth_length. exact L.
    + intros u x y Hx Hy. apply (at_upd _ _ _ _ _ _ Ht) in Hy as [(-> & ->)|(Nu & Hy)].
      * specialize (O t x th Hx Ht). destruct Hcase as [(-> & ->)|(o & -> & E)]; [exact O|].
        rewrite (ops_by_snoc _ _ _ _ _ (c_threads c1)), Nat.eqb_refl, <- app_assoc. rewrite E in O. exact O.
      * specialize (O u x y Hx Hy). destruct Hcase as [(-> & _)|(o & -> & _)]; [exact O|].
        rewrite (ops_by_snoc _ _ _ _ _ (c_threads c1)). apply not_eq_sym, Nat.eqb_neq in Nu. rewrite Nu, app_nil_r. exact O.
    + intros e He. destruct Hcase as [(-> & _)|(o & -> & _)]; [auto|].
      apply in_app_or in He as [He|[<-|[]]]; auto.
Qed.
Lemma log_parts n : forall log : list (nat * op), (forall e, In e log -> fst e < n) ->
  Permutation (map snd log) (flat_map (fun t => map snd (filter (fun e => fst e =? t) log)) (seq 0 n)).
Proof.
  induction log as [|[t o] log IH]; intros H.
  - replace (flat_map _ _) with (@nil op); [constructor|]. symmetry. generalize (seq 0 n) as s. induction s; auto.
  - assert (Ht : t < n) by exact (H (t, o) (or_introl eq_refl)).
    assert (Es : seq 0 n = seq 0 t ++ t :: seq (S t) (n - S t)).
    { replace (t :: seq (S t) (n - S t)) with (seq t (n - t)) by (replace (n - t) with (S (n - S t)) by lia; reflexivity).
      change (seq t (n - t)) with (seq (0 + t) (n - t)). rewrite <- seq_app. f_equal. lia. }
    assert (Same : forall s, ~ In t s -> flat_map (fun u => map snd (filter (fun e => fst e =? u) ((t, o) :: log))) s =
      flat_map (fun u => map snd (filter (fun e => fst e =? u) log)) s).
    { intros s Hn. rewrite !flat_map_concat_map. f_equal. apply map_ext_in. intros u Hu. cbn [filter fst].
      destruct (t =? u) eqn:E; [|reflexivity]. apply Nat.eqb_eq in E. congruence. }
    specialize (IH (fun e He => H e (or_intror He))). rewrite Es in IH |- *. rewrite flat_map_app in IH |- *.
    rewrite Same by (rewrite in_seq; lia). cbn [flat_map] in IH |- *. rewrite Same by (rewrite in_seq; lia).
    cbn [filter fst]. rewrite Nat.eqb_refl. cbn [map snd app].
    etransitivity; [apply perm_skip, IH|]. apply Permutation_middle.
Qed.
Lemma flat_map_perm {A B} (f g : A -> list B) s : Permutation (flat_map f s ++ flat_map g s) (flat_map (fun x => f x ++ g x) s).
Proof.
  induction s as [|x s IH]; [constructor|]. cbn. rewrite <- !app_assoc. apply Permutation_app_head.
  etransitivity; [apply Permutation_app_swap_app|]. apply Permutation_app_head, IH.
Qed.
Definition works_at (c : conf) (t : nat) : list op :=
  match nth_error (c_threads c) t with Some th => works (t_prog th) | None => [] end.
Lemma flat_map_seq {A B} (f : A -> list B) : forall xs (g : nat -> list B) k,
  (forall t x, nth_error xs t = Some x -> g (k + t) = f x) -> flat_map g (seq k (length xs)) = flat_map f xs.
Proof.
  induction xs as [|x xs IH]; intros g k H; [reflexivity|]. cbn. rewrite <- (H 0 x eq_refl), Nat.add_0_r. f_equal.
  apply IH. intros t y Hy. rewrite <- (H (S t) y Hy). f_equal. lia.
Qed.
Lemma log_perm l xs c : reaches l xs c ->
  Permutation (done_ops c ++ flat_map (works_at c) (seq 0 (length xs))) (flat_map op_of xs).
Proof.
  intros HR. apply opsinv_reach in HR as [L O B]. etransitivity.
  - apply Permutation_app_tail. unfold done_ops. apply (log_parts (length xs)), B.
  - etransitivity; [apply flat_map_perm|].
    rewrite (flat_map_seq op_of xs); [reflexivity|]. intros t x Hx. cbn. unfold works_at.
    destruct (nth_error (c_threads c) t) as [th|] eqn:Et.
    + exact (O _ _ _ Hx Et).
    + apply nth_error_None in Et. assert (t < length xs) by (apply nth_error_Some; congruence). lia.
Qed.

(** ** C50 *)
Lemma c50_unused l xs c : Forall (fun x => call_ok x = true) xs -> reaches l xs c -> unused c ->
  run l (done_ops c) = Done (c_cur c).
Proof.
  intros H HR HU. destruct (sinv_reach _ _ _ H HR) as [_ HP _].
  destruct HP as [Hi ER|u thu prev o log0 p hs d Hu Ho El ER Es HW HM|u thu prev o log0 Hu Ho El ER Es HW]; [exact ER| |].
  - exfalso. apply writing_locks in HW as (A & _). apply in_map_iff in A as ((k & w) & Ek & A). cbn in Ek. subst k.
    apply (HU u w). exists thu. auto.
  - exfalso. destruct HW as [(r & _ & A & _)]. apply (HU u true). exists thu. auto.
Qed.
Lemma finished_unused l xs c : Forall (fun x => call_ok x = true) xs -> reaches l xs c -> finished c -> unused c.
Proof.
  intros H HR HF t w (th & Ht & Hh). destruct (sinv_reach _ _ _ H HR) as [_ HP _].
  assert (Hp : t_prog th = []). { unfold finished in HF. rewrite Forall_forall in HF. eapply HF, nth_error_In, Ht. }
  assert (I0 : idle th -> False). { unfold idle. rewrite Hp. cbn. intros E. rewrite E in Hh. destruct Hh. }
  destruct HP as [Hi ER|u thu prev o log0 p hs d Hu Ho El ER Es HW HM|u thu prev o log0 Hu Ho El ER Es HW].
  - exact (I0 (Hi _ _ Ht)).
  - destruct (Nat.eq_dec t u) as [->|N]; [|exact (I0 (Ho _ _ N Ht))]. assert (thu = th) by congruence. subst thu.
    destruct p as [|a p]; [apply writing_end in HW as (HW & _); exact (I0 HW)|].
    destruct HW as [(h & r & Ep & _) _ _ _ _]. rewrite Hp in Ep. discriminate.
  - destruct (Nat.eq_dec t u) as [->|N]; [|exact (I0 (Ho _ _ N Ht))]. assert (thu = th) by congruence. subst thu.
    destruct HW as [(r & [Ep|Ep] & _)]; congruence.
Qed.
Lemma c50_serial l xs c : Forall (fun x => call_ok x = true) xs -> reaches l xs c -> finished c ->
  run l (done_ops c) = Done (c_cur c) /\ (forall t x, nth_error xs t = Some x -> ops_by t c = op_of x) /\
  (forall e, In e (c_log c) -> fst e < length xs).
Proof.
  intros H HR HF. split; [apply (c50_unused l xs c H HR), (finished_unused l xs c H HR HF)|].
  destruct (opsinv_reach _ _ _ HR) as [L O B]. split; [|exact B]. intros t x Hx.
  destruct (nth_error (c_threads c) t) as [th|] eqn:Et.
  - specialize (O _ _ _ Hx Et). unfold finished in HF. rewrite Forall_forall in HF.
    rewrite (HF th (nth_error_In _ _ Et)) in O. cbn in O. rewrite app_nil_r in O. exact O.
  - apply nth_error_None in Et. assert (t < length xs) by (apply nth_error_Some; congruence). lia.
Qed.
Lemma moves_log s : forall c c', moves c s = Some c' -> exists more, c_log c' = c_log c ++ more.
Proof.
  induction s as [|(t & g & p) s IH]; intros c c' H; cbn in H.
  - injection H as <-. exists []. rewrite app_nil_r. reflexivity.
  - destruct (move c t g p) as [c1|] eqn:E; [|discriminate]. destruct (IH _ _ H) as (more & ->).
    apply move_inv in E as (th & th' & cur & log & Ht & M & ->). cbn.
    destruct M; try (exists more; reflexivity). eexists. rewrite <- app_assoc. reflexivity.
Qed.
Lemma ops_by_nil t c : ops_by t c = [] -> ~ In t (map fst (c_log c)).
Proof.
  unfold ops_by. intros H C. apply in_map_iff in C as ((t' & o) & E & C). cbn in E. subst t'.
  assert (X : In (t, o) (filter (fun e => fst e =? t) (c_log c))) by (apply filter_In; split; [exact C|apply Nat.eqb_refl]).
  apply map_eq_nil in H. rewrite H in X. destruct X.
Qed.
Lemma c50_order l xs c s c' t u x tht thu : reaches l xs c -> moves c s = Some c' ->
  nth_error (c_threads c) t = Some tht -> t_prog tht = [] ->
  nth_error xs u = Some x -> nth_error (c_threads c) u = Some thu -> t_prog thu = prog_of x ->
  exists more, c_log c' = c_log c ++ more /\ ~ In t (map fst more) /\ ~ In u (map fst (c_log c)).
Proof.
  intros HR Hm Ht Pt Hx Hu Pu. destruct (moves_log _ _ _ Hm) as (more & Em). exists more. split; [exact Em|].
  assert (HR' : reaches l xs c').
  { destruct HR as (s0 & Hs0). exists (s0 ++ s). rewrite moves_app, Hs0. exact Hm. }
  destruct (opsinv_reach _ _ _ HR) as [L O B]. destruct (opsinv_reach _ _ _ HR') as [L' O' B']. split.
  - intros C. destruct (nth_error xs t) as [y|] eqn:Ey; [|apply nth_error_None in Ey; assert (t < length (c_threads c)) by (apply nth_error_Some; congruence); lia].
    destruct (nth_error (c_threads c') t) as [th'|] eqn:Et'; [|apply nth_error_None in Et'; assert (t < length xs) by (apply nth_error_Some; congruence); lia].
    pose proof (O _ _ _ Ey Ht) as A. rewrite Pt in A. cbn in A. rewrite app_nil_r in A.
    pose proof (O' _ _ _ Ey Et') as A'. unfold ops_by in A'. rewrite Em, filter_app, map_app, <- app_assoc in A'.
    unfold ops_by in A. rewrite A in A'. rewrite <- (app_nil_r (op_of y)) in A' at 2. apply app_inv_head in A'.
    apply app_eq_nil in A' as (A' & _). apply map_eq_nil in A'.
    apply in_map_iff in C as ((t' & o) & E & C). cbn in E. subst t'.
    assert (X : In (t, o) (filter (fun e => fst e =? t) more)) by (apply filter_In; split; [exact C|apply Nat.eqb_refl]).
    rewrite A' in X. destruct X.
  - apply ops_by_nil. pose proof (O _ _ _ Hx Hu) as A. rewrite Pu, works_call in A.
    rewrite <- (app_nil_l (op_of x)) in A at 2. apply app_inv_tail in A. exact A.
Qed.
Lemma c50_reads l xs c t th n b i v : Forall (fun x => call_ok x = true) xs -> reaches l xs c ->
  nth_error (c_threads c) t = Some th -> In (n, (b, i), v) (t_got th) ->
  n <= length (done_ops c) /\ exists l', v = seg_of b i l' /\
    (run l (firstn n (done_ops c)) = Done l' \/ run l (firstn (n - 1) (done_ops c)) = Done l').
Proof.
  intros H HR Ht Hin. destruct (sinv_reach _ _ _ H HR) as [_ _ HG]. specialize (HG t th Ht). rewrite Forall_forall in HG.
  specialize (HG _ Hin). unfold done_ops. rewrite map_length. exact HG.
Qed.
Lemma c50_exclusive l xs c t u w : Forall (fun x => call_ok x = true) xs -> reaches l xs c ->
  holding LSegs true t c -> holding LSegs w u c -> u = t.
Proof.
  intros H HR (a & Ha & Ia) (b & Hb & Ib). destruct (sinv_reach _ _ _ H HR) as [HE _ _].
  destruct (Nat.eq_dec t u) as [E|N]; [auto|]. destruct (excl_two _ t u a b LSegs w HE N Ha Hb Ia Ib).
Qed.
Lemma c50_mutex l xs c k t u w : Forall (fun x => call_ok x = true) xs -> reaches l xs c ->
  holding k true t c -> holding k w u c -> u = t.
Proof.
  intros H HR (a & Ha & Ia) (b & Hb & Ib). destruct (sinv_reach _ _ _ H HR) as [HE _ _].
  destruct (Nat.eq_dec t u) as [E|N]; [auto|]. destruct (excl_two _ t u a b k w HE N Ha Hb Ia Ib).
Qed.
(** a segment is read only under its lock and the lock of the segments *)
Lemma c50_get l xs c t th b i r : Forall (fun x => call_ok x = true) xs -> reaches l xs c ->
  nth_error (c_threads c) t = Some th -> t_prog th = Get b i :: r ->
  (exists w, holding LSegs w t c) /\ (exists w, holding (LSeg b i) w t c).
Proof.
  intros H HR Ht Ep. destruct (sinv_reach _ _ _ H HR) as [_ HP _].
  assert (Q : idle th -> (exists w, holding LSegs w t c) /\ (exists w, holding (LSeg b i) w t c)).
  { unfold idle. rewrite Ep. cbn. intros (A & B & _). apply in_map_iff in A as ((k & w) & Ek & A), B as ((k' & w') & Ek' & B).
    cbn in Ek, Ek'. subst. split; [exists w'|exists w]; exists th; auto. }
  destruct HP as [Hi ER|u thu prev o log0 p hs d Hu Ho El ER Es HW HM|u thu prev o log0 Hu Ho El ER Es HW]; [eauto| |].
  - destruct (Nat.eq_dec t u) as [->|N]; [|eauto]. assert (thu = th) by congruence. subst thu.
    destruct p as [|a p]; [apply writing_end in HW as (HW & _); auto|].
    destruct HW as [(h & r0 & Ep0 & _) Hok _ _ _]. rewrite Ep in Ep0. injection Ep0 as <- _. discriminate Hok.
  - destruct (Nat.eq_dec t u) as [->|N]; [|eauto]. assert (thu = th) by congruence. subst thu.
    destruct HW as [(r0 & [Ep0|Ep0] & _)]; congruence.
Qed.
Lemma run_reachable merge split : forall ops l m l', reachable merge split l m -> ops_ok merge split m ops ->
  run l ops = Done l' -> reachable merge split l' (spec_run m ops).
Proof.
  induction ops as [|o ops IH]; intros l m l' HR Hok E; cbn in *.
  - injection E as <-. exact HR.
  - destruct Hok as (H1 & H2). destruct (step l o) as [l1| | |] eqn:Es; try discriminate.
    eapply IH; [eapply R_step; eassumption|exact H2|exact E].
Qed.
Lemma c50_history merge split l m xs c : reachable merge split l m -> Forall (fun x => call_ok x = true) xs ->
  reaches l xs c -> unused c -> ops_ok merge split m (done_ops c) ->
  reachable merge split (c_cur c) (spec_run m (done_ops c)).
Proof. intros HR H Hc HU Hok. eapply run_reachable; [exact HR|exact Hok|]. eapply c50_unused; eassumption. Qed.

(** ** C42 *)
Lemma c42_progress l xs c : Forall plain_call xs -> Forall (fun x => call_ok x = true) xs -> reaches l xs c ->
  finished c \/ can_move c \/ broken c.
Proof. intros HP HC HR. apply c42_progress_inv. eapply oinv_reach; eassumption. Qed.

(** an operation starts on the list that the operations before it have left *)
Lemma work_cur l xs c t th o r : Forall (fun x => call_ok x = true) xs -> reaches l xs c ->
  nth_error (c_threads c) t = Some th -> t_prog th = Work o :: r -> run l (done_ops c) = Done (c_cur c).
Proof.
  intros H HR Ht Ep. destruct (sinv_reach _ _ _ H HR) as [HE HP _].
  assert (Q : idle th -> exists w, In (LSegs, w) (t_held th) /\ (w = true \/ In (LUpdate, true) (t_held th))).
  { unfold idle. rewrite Ep. cbn. intros (A & _). destruct (shared o).
    - destruct A as (A & B). apply in_map_iff in A as ((k & w) & Ek & A). cbn in Ek. subst k. eauto.
    - exists true. auto. }
  destruct HP as [Hi ER|u thu prev o' log0 p hs d Hu Ho El ER Es HW HM|u thu prev o' log0 Hu Ho El ER Es HW]; [exact ER| |].
  - destruct (Nat.eq_dec t u) as [->|N].
    + assert (thu = th) by congruence. subst thu. destruct p as [|a p].
      * apply writing_end in HW as (_ & ->). apply mix_done in HM. unfold done_ops. rewrite El, HM. eapply run_at; eassumption.
      * destruct HW as [(h & r0 & Ep0 & _) Hok _ _ _]. rewrite Ep in Ep0. injection Ep0 as <- _. discriminate Hok.
    + exfalso. destruct (Q (Ho _ _ N Ht)) as (w & A & B). apply writing_locks in HW as (W1 & W2).
      destruct B as [->|B]; [|exact (excl_two _ _ _ _ _ _ _ HE N Ht Hu B W2)].
      apply in_map_iff in W1 as ((k & w) & Ek & W1). cbn in Ek. subst k. exact (excl_two _ _ _ _ _ _ _ HE N Ht Hu A W1).
  - destruct HW as [(r0 & Ep0 & W1 & _)]. destruct (Nat.eq_dec t u) as [->|N].
    + assert (thu = th) by congruence. subst thu. destruct Ep0 as [E|E]; congruence.
    + exfalso. destruct (Q (Ho _ _ N Ht)) as (w & A & _). exact (excl_two _ _ _ _ _ _ _ HE (not_eq_sym N) Hu Ht W1 A).
Qed.
Lemma not_broken l xs c : Forall (fun x => call_ok x = true) xs -> reaches l xs c -> never_fails l (flat_map op_of xs) -> ~ broken c.
Proof.
  intros H HR HN (t & th & o & r & Ht & Ep & Hf).
  assert (Hlt : t < length xs).
  { destruct (opsinv_reach _ _ _ HR) as [L _ _]. rewrite <- L. apply nth_error_Some. congruence. }
  assert (Hin : In o (flat_map (works_at c) (seq 0 (length xs)))).
  { apply in_flat_map. exists t. split; [apply in_seq; lia|]. unfold works_at. rewrite Ht, Ep. left. reflexivity. }
  apply in_split in Hin as (a & b & Eab). pose proof (log_perm l xs c HR) as HP. rewrite Eab in HP.
  destruct (HN (done_ops c) o (a ++ b) (c_cur c)) as (l' & E); [|eapply work_cur; eassumption|exact (Hf l' E)].
  etransitivity; [|exact HP]. apply Permutation_app_head. apply Permutation_middle.
Qed.

Definition todo_ops (c : conf) : nat := total (fun th => length (works (t_prog th))) (c_threads c).
Definition weight (th : thread) : nat := 2 * length (t_prog th) + (if t_ann th then 0 else 1).
Definition todo_acts (c : conf) : nat := total weight (c_threads c).
Lemma weight_eq th : weight th = 2 * length (t_prog th) + (if t_ann th then 0 else 1).
Proof. reflexivity. Qed.
Lemma move_less c t g p c' : move c t g p = Some c' ->
  todo_ops c' < todo_ops c \/ (todo_ops c' = todo_ops c /\ todo_acts c' < todo_acts c).
Proof.
  intros Hm. apply move_inv in Hm as (th & th' & cur & log & Ht & M & ->). unfold todo_ops, todo_acts. cbn [c_threads].
  pose proof (total_upd (fun th => length (works (t_prog th))) t th' _ _ Ht) as A. cbn beta in A.
  pose proof (total_upd weight t th' _ _ Ht) as B. rewrite !weight_eq in B.
  remember (upd_nth t (fun _ => th') (c_threads c)) as ths' eqn:Eths. clear Eths.
  destruct M as [k r E Ea Ew Er|k r E Ea Ew Eq|k r E Ew Eq|k r h0 E Eh0|b i r E|o r new pl E Es Epl|k r g0 E|k r E];
    cbn [t_prog t_ann] in A, B; rewrite ?E, ?Ea in A, B; cbn [works flat_map app length] in A, B.
  all: change (flat_map _ r) with (works r) in A.
  1-5,7-8: right; destruct (t_ann th); lia.
  rewrite works_app in A. rewrite (plan_works _ _ _ _ Epl) in A. cbn [app] in A. left. lia.
Qed.
Lemma c42_completes l xs c : Forall plain_call xs -> Forall (fun x => call_ok x = true) xs ->
  never_fails l (flat_map op_of xs) -> reaches l xs c -> exists s c', moves c s = Some c' /\ finished c'.
Proof.
  intros HP HC HN. enough (G : forall a b c, todo_ops c <= a -> todo_acts c <= b -> reaches l xs c ->
    exists s c', moves c s = Some c' /\ finished c') by (intros HR; apply (G (todo_ops c) (todo_acts c) c); auto).
  induction a as [a IHa] using lt_wf_ind. induction b as [b IHb] using lt_wf_ind. clear c. intros c Ha Hb HR.
  destruct (c42_progress l xs c HP HC HR) as [F|[(t & g & p & c1 & Hm)|X]].
  - exists [], c. auto.
  - assert (HR1 : reaches l xs c1).
    { destruct HR as (s & Hs). exists (s ++ [(t, (g, p))]). rewrite moves_app, Hs. cbn. rewrite Hm. reflexivity. }
    assert (exists s c', moves c1 s = Some c' /\ finished c') as (s & c' & Hs & F).
    { destruct (move_less _ _ _ _ _ Hm) as [H|(H1 & H2)].
      - apply (IHa (todo_ops c1)) with (b := todo_acts c1); auto; lia.
      - apply (IHb (todo_acts c1)); auto; lia. }
    exists ((t, (g, p)) :: s), c'. split; [|exact F]. cbn. rewrite Hm. exact Hs.
  - destruct (not_broken l xs c HC HR HN X).
Qed.

(** calls that only read *)
Fixpoint reading (h : list (lock * bool)) (p : list act) : Prop :=
  match p with
  | [] => h = []
  | Acq k w :: r => (if w then k = LLoading /\ ~ In LLoading (map fst h) else k <> LLoading) /\ reading ((k, w) :: h) r
  | Rel k :: r => match drop_held k h with Some h' => reading h' r | None => False end
  | Get _ _ :: r => reading h r
  | _ => False
  end.
Lemma reading_reads ks : forall h r, reading h r -> reading h (flat_map read_seg ks ++ r).
Proof.
  induction ks as [|[b i] ks IH]; intros h r Hs; [exact Hs|].
  cbn [flat_map read_seg fst snd app reading drop_held]. rewrite lock_eqb_refl. split; [discriminate|]. apply IH, Hs.
Qed.
Lemma reading_holds js : forall h r, reading (rev (map (fun j => (LSeg false j, false)) js) ++ h) r ->
  reading h (flat_map (fun j => hold_seg (false, j)) js ++ r).
Proof.
  induction js as [|j js IH]; intros h r Hs; [exact Hs|].
  cbn [flat_map hold_seg fst snd app reading]. split; [discriminate|].
  apply IH. cbn [map rev] in Hs. rewrite <- app_assoc in Hs. exact Hs.
Qed.
Lemma reading_frees js : forall h r, reading h r ->
  reading (map (fun j => (LSeg false j, false)) js ++ h) (flat_map (fun j => free_seg (false, j)) js ++ r).
Proof.
  induction js as [|j js IH]; intros h r Hs; [exact Hs|].
  cbn [flat_map free_seg fst snd app map reading drop_held]. rewrite lock_eqb_refl. apply IH, Hs.
Qed.
Lemma reading_walk js h r : reading h r ->
  reading h (flat_map (fun j => hold_seg (false, j)) js ++ flat_map (fun j => free_seg (false, j)) (rev js) ++ r).
Proof. intros Hs. apply reading_holds. rewrite <- map_rev. apply reading_frees, Hs. Qed.
Lemma reading_call x : read_call x -> reading [] (prog_of x).
Proof.
  assert (LD : forall h tl, ~ In LLoading (map fst h) -> reading ((LSegs, false) :: h) tl -> reading h (load false false false ++ tl)).
  { intros h tl Hn H. cbn [load app reading]. split; [auto|]. split; [discriminate|]. exact H. }
  destruct x as [cold ks|cold ks i below above|cold i window|cold ks|cold o ks|o| |cold ks]; cbn [read_call prog_of]; try tauto; intros ->;
    (apply LD; [intros []|]).
  - cbn [read_stats app reading]. split; [discriminate|]. cbn. apply reading_reads. reflexivity.
  - apply reading_reads. cbn [read_stats app reading]. split; [discriminate|]. cbn [drop_held fst lock_eqb lock_eq_dec]. cbn.
    unfold read_around. rewrite <- !app_assoc. cbn [hold_seg fst snd app reading]. split; [discriminate|].
    apply reading_walk, reading_walk. cbn. rewrite lock_eqb_refl. reflexivity.
  - cbn [read_stats app reading]. split; [discriminate|]. cbn [drop_held fst lock_eqb lock_eq_dec]. cbn.
    unfold read_score. rewrite <- !app_assoc. cbn [hold_seg fst snd app reading]. split; [discriminate|].
    rewrite flat_map_concat_map, <- (map_map (fun j => (false, j)) read_seg), <- flat_map_concat_map.
    apply reading_reads. cbn. rewrite lock_eqb_refl. reflexivity.
  - cbn [read_stats app reading]. split; [discriminate|]. cbn [drop_held fst]. cbn. induction ks as [|k ks IH]; [reflexivity|].
    cbn [flat_map]. rewrite <- app_assoc. unfold read_window at 1. rewrite <- !app_assoc.
    apply LD; [intros [C|[]]; discriminate|]. cbn [read_stats app reading]. split; [discriminate|]. cbn [drop_held fst]. cbn.
    apply reading_reads. exact IH.
Qed.
Definition rinv (c : conf) : Prop :=
  forall t th, nth_error (c_threads c) t = Some th -> reading (t_held th) (t_prog th) /\
    (forall k, In (k, true) (t_held th) -> k = LLoading) /\ (t_ann th = true -> exists r, t_prog th = Acq LLoading true :: r).
Lemma rinv_reach l xs c : Forall read_call xs -> reaches l xs c -> rinv c.
Proof.
  intros HX (s & Hs). eapply (moves_ind rinv); [| |exact Hs].
  - intros t th Ht. apply start_held in Ht as (x & Hx & ->). apply nth_error_In in Hx. rewrite Forall_forall in HX.
    split; [apply reading_call, HX, Hx|]. split; [intros k []|discriminate].
  - intros c1 t g p c2 HI Hm. apply move_inv in Hm as (th & th' & cur & log & Ht & M & ->). intros u x Hx. cbn in Hx.
    apply (at_upd _ _ _ _ _ _ Ht) in Hx as [(-> & ->)|(_ & Hx)]; [|eauto].
    destruct (HI _ _ Ht) as (HR & HW & HA).
    destruct M as [k r E Ea Ew Er|k r E Ea Ew Eq|k r E Ew Eq|k r h0 E Eh0|b i r E|o r new pl E Es Epl|k r g0 E|k r E];
      rewrite E in HR; cbn [reading] in HR; cbn [t_held t_prog t_ann].
    + destruct HR as ((-> & _) & HR). split; [exact HR|]. split; [|discriminate]. intros k [X|X]; [congruence|auto].
    + split; [rewrite E; exact HR|]. split; [exact HW|]. destruct HR as ((-> & _) & _). eauto.
    + destruct HR as (_ & HR). split; [exact HR|]. split; [|discriminate]. intros k0 [X|X]; [congruence|auto].
    + rewrite Eh0 in HR. split; [exact HR|]. split; [|discriminate]. intros k0 X. apply HW.
      apply drop_held_inv in Eh0 as (a & w & b & -> & -> & _). apply in_or_app. apply in_app_or in X as [X|X]; [left|right; right]; exact X.
    + split; [exact HR|]. split; [exact HW|discriminate].
    + destruct HR.
    + destruct HR.
    + destruct HR.
Qed.
Lemma c42_readers l xs c : Forall read_call xs -> reaches l xs c -> finished c \/ can_move c.
Proof.
  intros HX HR. pose proof (rinv_reach _ _ _ HX HR) as HI.
  assert (D : forall th, {t_prog th = []} + {t_prog th <> []}).
  { intros th. destruct (t_prog th); [left; reflexivity|right; discriminate]. }
  destruct (Forall_Exists_dec (fun th => t_prog th = []) D (c_threads c)) as [H|H]; [left; exact H|right].
  apply Exists_exists in H as (th & Hin & Hp). apply In_nth_error in Hin as (t & Ht).
  (* a thread that is not waiting for loadingLock can go on *)
  assert (Go : forall u x, nth_error (c_threads c) u = Some x -> t_prog x <> [] -> can_move c \/ waits_for x = Some LLoading).
  { intros u x Hu Np. destruct (HI u x Hu) as (HRd & HW & HA). destruct (t_prog x) as [|a r] eqn:Ep; [congruence|].
    destruct a as [k w|k|b i|o|k|k]; cbn [reading] in HRd.
    - destruct w; [destruct HRd as ((-> & _) & _); right; unfold waits_for; rewrite Ep; reflexivity|]. left.
      destruct HRd as (Nk & _).
      assert (W : writers k (c_threads c) = 0).
      { destruct (Nat.eq_dec (writers k (c_threads c)) 0) as [E|E]; [exact E|]. apply total_pos in E as (v & y & Hv & Hy).
        rewrite holds_cnt in Hy. apply cnt_In in Hy. destruct (HI v y Hv) as (_ & Hw & _). apply Hw in Hy. congruence. }
      assert (Q : queued k (c_threads c) = 0).
      { destruct (Nat.eq_dec (queued k (c_threads c)) 0) as [E|E]; [exact E|]. apply total_pos in E as (v & y & Hv & Hy).
        unfold pending in Hy. destruct (HI v y Hv) as (_ & _ & Ha). destruct (t_prog y) as [|[k1 [|]|?|? ?|?|?|?] r1] eqn:Ey; try congruence.
        destruct (t_ann y); [|cbn in Hy; congruence]. destruct (Ha eq_refl) as (r2 & E2). injection E2 as -> ->. cbn in Hy.
        destruct (lock_eqb k LLoading) eqn:E3; [apply lock_eqb_true in E3; congruence|congruence]. }
      exists u, (c_cur c), []. eexists. unfold move. rewrite Hu, Ep, W, Q. reflexivity.
    - left. destruct (drop_held k (t_held x)) as [h'|] eqn:Eh; [|destruct HRd].
      exists u, (c_cur c), []. eexists. unfold move. rewrite Hu, Ep, Eh. reflexivity.
    - left. exists u, (c_cur c), []. eexists. unfold move. rewrite Hu, Ep. reflexivity.
    - destruct HRd.
    - destruct HRd.
    - destruct HRd. }
  destruct (Go t th Ht Hp) as [A|Hw]; [exact A|].
  assert (Key : writers LLoading (c_threads c) <> 0 \/ readers LLoading (c_threads c) <> 0 -> can_move c).
  { intros X. destruct (held_somewhere _ _ X) as (v & y & Hv & Hk). destruct (HI v y Hv) as (HRd & _ & _).
    assert (Np : t_prog y <> []). { intros C. rewrite C in HRd. cbn in HRd. rewrite HRd in Hk. destruct Hk. }
    destruct (Go v y Hv Np) as [A|Hw']; [exact A|]. exfalso. unfold waits_for in Hw'.
    destruct (t_prog y) as [|[k1 w1|?|? ?|?|?|?] r1]; try discriminate Hw'. injection Hw' as ->. cbn in HRd.
    destruct w1; destruct HRd as (HRd & _); [destruct HRd as (_ & HRd); auto|congruence]. }
  destruct (Nat.eq_dec (writers LLoading (c_threads c)) 0) as [W|W]; [|auto].
  destruct (Nat.eq_dec (readers LLoading (c_threads c)) 0) as [R|R]; [|auto].
  eapply lock_free_moves; eassumption.
Qed.
