(** Copies of a list while other calls run on it. *)
From Coq Require Import Strings.String.
From Verif.Lib Require Import Prelude ListAux ListLemmas.
From Verif.Model Require Import Element Elements Segment List Locks Copy.
From Verif.Spec Require Import RankSpec QuerySpec HistorySpec AnswerSpec LockSpec CopySpec.
From Verif.Proof Require Import ChangeP HistoryP ListThm LocksP SerialP LocksThm.
Open Scope nat_scope.

(** ** What is read, in order *)
Definition gets (p : list act) : list (bool * nat) := flat_map (fun a => match a with Get b i => [(b, i)] | _ => [] end) p.
Lemma gets_app a b : gets (a ++ b) = gets a ++ gets b.
Proof. apply flat_map_app. Qed.
Lemma plan_gets o cur new p : plan_for o cur new p = true -> gets p = [].
Proof.
  unfold plan_for. destruct (shared o).
  - intros H. apply andb_true_iff in H as (H & _). revert H. generalize (@nil lock) at 1 as hs. generalize (@nil lock) as d.
    induction p as [|[k [|]|k|b i|o'|k|k] p IH]; intros d hs H; cbn [plan_ok] in H; try discriminate H; [reflexivity| | | |];
      rewrite ?andb_true_iff in H; destruct H as (_ & H); exact (IH _ _ H).
  - destruct p as [|[| | | |[]|] [|[| | | | |[]] [|]]]; try discriminate; reflexivity.
Qed.
Lemma got_order l xs c : reaches l xs c -> forall t x th, nth_error xs t = Some x -> nth_error (c_threads c) t = Some th ->
  map (fun e => snd (fst e)) (t_got th) ++ gets (t_prog th) = gets (prog_of x).
Proof.
  intros (s & Hs). eapply (moves_ind (fun c => forall t x th, nth_error xs t = Some x -> nth_error (c_threads c) t = Some th ->
    map (fun e => snd (fst e)) (t_got th) ++ gets (t_prog th) = gets (prog_of x))); [| |exact Hs].
  - intros t x th Hx Ht. apply start_held in Ht as (y & Hy & ->). rewrite Hx in Hy. injection Hy as <-. reflexivity.
  - intros c1 u g p c2 IH Hm t x th Hx Ht. apply move_inv in Hm as (thu & th' & cur & log & Hu & M & ->). cbn [c_threads] in Ht.
    apply (at_upd _ _ _ _ _ _ Hu) in Ht as [(-> & ->)|(_ & Ht)]; [|eauto]. specialize (IH _ _ _ Hx Hu). rewrite <- IH.
    destruct M as [k r E Ea Ew Er|k r E Ea Ew Eq|k r E Ew Eq|k r h0 E Eh0|b i r E|o r new pl E Es Epl|k r g0 E|k r E];
      cbn [t_got t_prog]; rewrite ?E; try reflexivity.
    + rewrite map_app, <- app_assoc. reflexivity.
    + rewrite gets_app, (plan_gets _ _ _ _ Epl). reflexivity.
Qed.
Lemma gets_reads ks : gets (flat_map read_seg ks) = ks.
Proof. induction ks as [|[b i] ks IH]; [reflexivity|]. cbn. f_equal. exact IH. Qed.
Lemma gets_load a b c : gets (load a b c) = [].
Proof. destruct a, b, c; reflexivity. Qed.

(** ** The list does not change under a copying call *)
(** [q]: nobody changes elements under the read lock *)
Definition hot (q : bool) (h : list (lock * bool)) : Prop := In LSegs (map fst h) /\ (q = true \/ In (LUpdate, true) h).
Fixpoint solid (q g : bool) (h : list (lock * bool)) (p : list act) : Prop :=
  match p with
  | [] => True
  | Acq k w :: r => (g = true -> k <> LSegs /\ k <> LUpdate) /\ solid q g ((k, w) :: h) r
  | Rel k :: r => match drop_held k h with Some h' => solid q g h' r | None => False end
  | Get _ _ :: r => hot q h /\ solid q true h r
  | _ => False
  end.
Definition some_got (th : thread) : bool := negb (nilb (t_got th)).

(** in a quiet set of calls, everything is changed under the write lock *)
Fixpoint strict (h : list (lock * bool)) (p : list act) : Prop :=
  match p with
  | [] => True
  | Acq k w :: r => strict ((k, w) :: h) r
  | Rel k :: r => match drop_held k h with Some h' => strict h' r | None => False end
  | Get _ _ :: r => strict h r
  | Work o :: r => shared o = false /\ In (LSegs, true) h /\ strict h r
  | Dirty _ :: r | Put _ :: r => In (LSegs, true) h /\ strict h r
  end.
Definition frozen (q : bool) (c : conf) : Prop := q = true -> forall t th, nth_error (c_threads c) t = Some th -> strict (t_held th) (t_prog th).

Lemma held_in (h : list (lock * bool)) : In LSegs (map fst h) -> exists w, In (LSegs, w) h.
Proof. intros H. apply in_map_iff in H as ((k & w) & E & H). cbn in E. subst k. eauto. Qed.

Lemma strict_plan r : forall p hs d h, plan_ok hs d p = true -> NoDup hs -> (forall k, In k hs -> is_cell k = true) ->
  ~ In (LSegs, true) h -> strict (wr hs ++ h) (p ++ r) -> puts p = [].
Proof.
  assert (X : forall hs h, (forall k, In k hs -> is_cell k = true) -> ~ In (LSegs, true) h -> ~ In (LSegs, true) (wr hs ++ h)).
  { intros hs h Hc N C. apply in_app_or in C as [C|C]; [|auto]. unfold wr in C. apply in_map_iff in C as (k & E & C). injection E as ->. discriminate (Hc _ C). }
  induction p as [|[k [|]|k|b i|o'|k|k] p IH]; intros hs d h Hok Nd Hc N HS; cbn [plan_ok] in Hok; try discriminate Hok; [reflexivity| | | |];
    rewrite ?andb_true_iff in Hok; cbn [app strict] in HS.
  - destruct Hok as (((Hk & Hn) & _) & Hok). apply negb_true_iff, mem_lock_not in Hn.
    apply (IH (k :: hs) d h Hok); [constructor; assumption|intros x [<-|Hx]; auto|exact N|exact HS].
  - destruct Hok as ((Hk & _) & Hok). apply mem_lock_In in Hk. destruct (drop_held k (wr hs ++ h)) as [h'|] eqn:E; [|destruct HS].
    rewrite (drop_wr _ _ _ _ Nd Hk E) in HS. apply (IH _ d h Hok); [apply drop_nodup, Nd| |exact N|exact HS].
    intros x Hx. apply drop_lock_In in Hx as (Hx & _). auto.
  - destruct HS as (HS & _). destruct (X _ _ Hc N HS).
  - destruct HS as (HS & _). destruct (X _ _ Hc N HS).
Qed.

(** while a copying call is in, no other call changes list or log *)
Lemma frozen_other q l c t th u thu th' cur log : sinv l c -> frozen q c -> nth_error (c_threads c) t = Some th -> hot q (t_held th) ->
  u <> t -> nth_error (c_threads c) u = Some thu -> tmove c u thu th' cur log -> cur = c_cur c /\ log = c_log c.
Proof.
  intros [HE HP _] HF Ht (H1 & H2) N Hu M. apply held_in in H1 as (w & H1).
  assert (NS : ~ In (LSegs, true) (t_held thu)) by (intros C; exact (excl_two _ _ _ _ _ _ _ HE N Hu Ht C H1)).
  assert (NU : q = true \/ ~ In (LUpdate, true) (t_held thu)).
  { destruct H2 as [H2|H2]; [auto|]. right. intros C. exact (excl_two _ _ _ _ _ _ _ HE N Hu Ht C H2). }
  destruct M as [k r E Ea Ew Er|k r E Ea Ew Eq|k r E Ew Eq|k r h0 E Eh0|b i r E|o r new p E Es Epl|k r g E|k r E]; auto; exfalso;
    (assert (HS : q = true -> strict (t_held thu) (t_prog thu)) by (intros Q; exact (HF Q _ _ Hu))); rewrite E in HS; cbn [strict] in HS;
    (destruct NU as [NU|NU]; [specialize (HS NU); tauto|]); clear HS.
  all: assert (A : idle thu -> False) by (unfold idle; rewrite E; cbn [sane]; try (intros H; exact H);
         intros (A & _); destruct (shared o); tauto).
  all: destruct HP as [Hi ER|v thv prev o' log0 p' hs d Hv Ho El ER Es' HW HM|v thv prev o' log0 Hv Ho El ER Es' HW]; [exact (A (Hi _ _ Hu))| |].
  all: destruct (Nat.eq_dec u v) as [<-|Nv]; [|exact (A (Ho _ _ Nv Hu))]; assert (thv = thu) by congruence; subst thv.
  all: try (apply writing_locks in HW as (_ & W2); exact (NU W2)).
  all: destruct HW as [(r0 & _ & W & _)]; exact (NS W).
Qed.
(** and the list is what the finished operations have left *)
Lemma frozen_cur q l c t th b i r : sinv l c -> frozen q c -> nth_error (c_threads c) t = Some th -> hot q (t_held th) ->
  t_prog th = Get b i :: r -> run l (done_ops c) = Done (c_cur c).
Proof.
  intros [HE HP _] HF Ht (H1 & H2) Ep. apply held_in in H1 as (w & H1).
  destruct HP as [Hi ER|u thu prev o' log0 p hs d Hu Ho El ER Es HW HM|u thu prev o' log0 Hu Ho El ER Es HW]; [exact ER| |].
  - destruct (Nat.eq_dec t u) as [->|N].
    + assert (thu = th) by congruence. subst thu. destruct p as [|a p].
      * apply writing_end in HW as (_ & ->). apply mix_done in HM. unfold done_ops. rewrite El, HM. eapply run_at; eassumption.
      * destruct HW as [(h & r0 & Ep0 & _) Hok _ _ _]. rewrite Ep in Ep0. injection Ep0 as <- _. discriminate Hok.
    + destruct H2 as [Q|H2].
      * assert (NS : ~ In (LSegs, true) (t_held thu)) by (intros C; exact (excl_two _ _ _ _ _ _ _ HE (not_eq_sym N) Hu Ht C H1)).
        pose proof (HF Q _ _ Hu) as HS. destruct HW as [(h & r0 & Ep0 & Eh & _) Hok Nd _ Hc]. rewrite Ep0, Eh in HS.
        assert (P0 : puts p = []).
        { eapply strict_plan; [exact Hok|exact Nd|exact Hc| |exact HS]. intros C. apply NS. rewrite Eh. apply in_or_app. auto. }
        rewrite P0 in HM. apply mix_done in HM. unfold done_ops. rewrite El, HM. eapply run_at; eassumption.
      * exfalso. apply writing_locks in HW as (W1 & W2). exact (excl_two _ _ _ _ _ _ _ HE N Ht Hu H2 W2).
  - destruct HW as [(r0 & Ep0 & W1 & _)]. destruct (Nat.eq_dec t u) as [->|N].
    + assert (thu = th) by congruence. subst thu. destruct Ep0 as [E|E]; congruence.
    + exfalso. exact (excl_two _ _ _ _ _ _ _ HE (not_eq_sym N) Hu Ht W1 H1).
Qed.

(** ** The invariant *)
Definition one (q : bool) (l : lst) (c : conf) (th : thread) : Prop :=
  solid q (some_got th) (t_held th) (t_prog th) /\
  (t_got th = [] \/ exists n l', moment l c n l' /\ Forall (fun e => snd e = seg_of (fst (snd (fst e))) (snd (snd (fst e))) l') (t_got th) /\
     (hot q (t_held th) -> n = length (c_log c) /\ c_cur c = l')).
Lemma hot_less q k h h' : drop_held k h = Some h' -> hot q h' -> hot q h.
Proof.
  intros E (A & B). apply drop_held_inv in E as (a & w0 & b & -> & -> & _). unfold hot. rewrite map_app in *. cbn [map]. split.
  - apply in_app_or in A as [A|A]; apply in_or_app; [auto|right; right; exact A].
  - destruct B as [B|B]; [auto|]. right. apply in_app_or in B as [B|B]; apply in_or_app; [auto|right; right; exact B].
Qed.
Lemma moment_more l cur ths log c n l' : (exists more, log = c_log c ++ more) -> moment l c n l' -> moment l (mkC cur ths log) n l'.
Proof.
  intros (more & ->) (A & B). unfold moment, done_ops in *. cbn [c_log]. rewrite map_app, app_length, firstn_app.
  replace (n - length (map snd (c_log c))) with 0 by lia. cbn. rewrite app_nil_r. split; [lia|exact B].
Qed.
Lemma one_acq q l c t th k w r cur ths log :
  (exists more, log = c_log c ++ more) -> (negb (nilb (t_got th)) = true -> k <> LSegs /\ k <> LUpdate) /\ solid q (negb (nilb (t_got th))) ((k, w) :: t_held th) r ->
  (t_got th = [] \/ exists n l', moment l c n l' /\ Forall (fun e => snd e = seg_of (fst (snd (fst e))) (snd (snd (fst e))) l') (t_got th) /\
     (hot q (t_held th) -> n = length (c_log c) /\ c_cur c = l')) -> cur = c_cur c -> log = c_log c ->
  solid q (negb (nilb (t_got th))) ((k, w) :: t_held th) r /\
  (t_got th = [] \/ exists n l', moment l (mkC cur (upd_nth t ths (c_threads c)) log) n l' /\
     Forall (fun e => snd e = seg_of (fst (snd (fst e))) (snd (snd (fst e))) l') (t_got th) /\
     (hot q ((k, w) :: t_held th) -> n = length (c_log (mkC cur (upd_nth t ths (c_threads c)) log)) /\ c_cur (mkC cur (upd_nth t ths (c_threads c)) log) = l')).
Proof.
  intros LG (HK & HS) HO -> ->. split; [exact HS|]. destruct (t_got th) as [|y ys]; [auto|].
  destruct HO as [HO|(n & l' & HM & HA & HH)]; [discriminate|]. right. exists n, l'.
  split; [apply moment_more with (c := c); assumption|]. split; [exact HA|]. cbn [c_log c_cur]. intros (X & Y). apply HH.
  destruct (HK eq_refl) as (G1 & G2). split; [destruct X as [X|X]; [cbn in X; congruence|exact X]|]. destruct Y as [Y|[Y|Y]]; [auto|congruence|auto].
Qed.
Lemma one_step q l c t th u g p c' : sinv l c -> frozen q c -> nth_error (c_threads c) t = Some th -> one q l c th -> move c u g p = Some c' ->
  exists th', nth_error (c_threads c') t = Some th' /\ one q l c' th'.
Proof.
  intros HI HF Ht (HS & HO) Hm. pose proof Hm as Hm0. apply move_inv in Hm as (thu & th' & cur & log & Hu & M & ->). cbn [c_threads].
  assert (LG : exists more, log = c_log c ++ more) by (destruct M; try (exists []; rewrite app_nil_r; reflexivity); eexists; reflexivity).
  destruct (Nat.eq_dec u t) as [->|N].
  2: { exists th. split; [rewrite nth_upd_other by exact N; exact Ht|]. split; [exact HS|]. destruct HO as [HO|(n & l' & HM & HA & HH)]; [auto|].
       right. exists n, l'. split; [apply moment_more with (c := c); assumption|]. split; [exact HA|]. intros Hh. destruct (HH Hh) as (-> & E).
       cbn [c_log c_cur]. destruct (frozen_other _ _ _ _ _ _ _ _ _ _ HI HF Ht Hh N Hu M) as (-> & ->). auto. }
  assert (thu = th) by congruence. subst thu. exists th'. split; [eapply nth_upd_same, Ht|]. unfold one.
  destruct M as [k r E Ea Ew Er|k r E Ea Ew Eq|k r E Ew Eq|k r h0 E Eh0|b i r E|o r new pl E Es Epl|k r g0 E|k r E];
    unfold some_got in *; rewrite E in HS; cbn [solid t_prog t_held t_got] in *; try (destruct HS; fail).
  - apply one_acq with (c := c); auto.
  - rewrite E. split; [exact HS|]. destruct HO as [HO|(n & l' & HM & HA & HH)]; [auto|]. right. exists n, l'.
    split; [apply moment_more with (c := c); assumption|]. auto.
  - apply one_acq with (c := c); auto.
  - rewrite Eh0 in HS. split; [exact HS|]. destruct HO as [HO|(n & l' & HM & HA & HH)]; [auto|]. right. exists n, l'.
    split; [apply moment_more with (c := c); assumption|]. split; [exact HA|]. cbn [c_log c_cur]. intros X. apply HH, (hot_less _ _ _ _ Eh0 X).
  - destruct HS as (Hh & HS). split; [destruct (t_got th); exact HS|]. right.
    destruct HO as [HO|(n & l' & HM & HA & HH)].
    + exists (length (c_log c)), (c_cur c). split; [|split; [rewrite HO; constructor; [reflexivity|constructor]|auto]].
      apply moment_more with (c := c); [exact LG|]. split; [unfold done_ops; rewrite map_length; lia|].
      unfold done_ops. rewrite <- (map_length snd (c_log c)), firstn_all. exact (frozen_cur _ _ _ _ _ _ _ _ HI HF Ht Hh E).
    + destruct (HH Hh) as (-> & <-). exists (length (c_log c)), (c_cur c). split; [apply moment_more with (c := c); assumption|]. split; [|auto].
      apply Forall_app. split; [exact HA|]. constructor; [reflexivity|constructor].
Qed.
Lemma strict_step c u th th' cur log : tmove c u th th' cur log -> strict (t_held th) (t_prog th) -> strict (t_held th') (t_prog th').
Proof.
  intros M HS. destruct M as [k r E Ea Ew Er|k r E Ea Ew Eq|k r E Ew Eq|k r h0 E Eh0|b i r E|o r new pl E Es Epl|k r g0 E|k r E];
    rewrite E in HS; cbn [strict t_prog t_held] in *; try exact HS; try apply HS.
  - rewrite E. exact HS.
  - rewrite Eh0 in HS. exact HS.
  - destruct HS as (S1 & S2 & HS). unfold plan_for in Epl. rewrite S1 in Epl.
    destruct pl as [|[| | | |[]|] [|[| | | | |[]] [|]]]; try discriminate Epl. cbn. auto.
Qed.
Lemma frozen_step q c u g p c' : frozen q c -> move c u g p = Some c' -> frozen q c'.
Proof.
  intros HF Hm Q t th Ht. apply move_inv in Hm as (thu & th' & cur & log & Hu & M & ->). cbn [c_threads] in Ht.
  apply (at_upd _ _ _ _ _ _ Hu) in Ht as [(-> & ->)|(_ & Ht)]; [|eapply HF; eassumption]. eapply strict_step; [exact M|]. eapply HF; eassumption.
Qed.
Lemma strict_reads ks : forall h r, strict h r -> strict h (flat_map read_seg ks ++ r).
Proof.
  induction ks as [|[b i] ks IH]; intros h r Hs; [exact Hs|]. cbn [flat_map read_seg fst snd app strict drop_held]. rewrite lock_eqb_refl. apply IH, Hs.
Qed.
Lemma strict_holds js : forall h r, strict (rev (map (fun j => (LSeg false j, false)) js) ++ h) r -> strict h (flat_map (fun j => hold_seg (false, j)) js ++ r).
Proof.
  induction js as [|j js IH]; intros h r Hs; [exact Hs|]. cbn [flat_map hold_seg fst snd app strict].
  apply IH. cbn [map rev] in Hs. rewrite <- app_assoc in Hs. exact Hs.
Qed.
Lemma strict_frees js : forall h r, strict h r -> strict (map (fun j => (LSeg false j, false)) js ++ h) (flat_map (fun j => free_seg (false, j)) js ++ r).
Proof.
  induction js as [|j js IH]; intros h r Hs; [exact Hs|]. cbn [flat_map free_seg fst snd app map strict drop_held]. rewrite lock_eqb_refl. apply IH, Hs.
Qed.
Lemma strict_walk js h r : strict h r -> strict h (flat_map (fun j => hold_seg (false, j)) js ++ flat_map (fun j => free_seg (false, j)) (rev js) ++ r).
Proof. intros Hs. apply strict_holds. rewrite <- map_rev. apply strict_frees, Hs. Qed.
Lemma strict_call x : call_ok x = true -> ~ changes_elements x -> strict [] (prog_of x).
Proof.
  intros Hok HC. destruct x as [cold ks|cold ks i below above|cold i window|cold ks|cold o ks|o| |cold ks]; cbn [prog_of call_ok changes_elements] in *.
  - assert (G : strict [(LSegs, false)] (read_stats ++ flat_map read_seg ks ++ unload false)).
    { cbn [read_stats app strict drop_held]. cbn. apply strict_reads. reflexivity. }
    destruct cold; exact G.
  - assert (G : strict [(LSegs, false)] (flat_map read_seg ks ++ read_stats ++ read_around i below above ++ unload false)).
    { apply strict_reads. cbn [read_stats app strict]. cbn [drop_held lock_eqb lock_eq_dec fst].
      unfold read_around. rewrite <- !app_assoc. cbn [hold_seg fst snd app strict]. cbn.
      apply strict_walk, strict_walk. cbn. rewrite lock_eqb_refl. reflexivity. }
    destruct cold; exact G.
  - assert (G : strict [(LSegs, false)] (read_stats ++ read_score i window ++ unload false)).
    { cbn [read_stats app strict]. cbn [drop_held lock_eqb lock_eq_dec fst]. unfold read_score. rewrite <- !app_assoc. cbn [hold_seg fst snd app strict].
      rewrite flat_map_concat_map, <- (map_map (fun j => (false, j)) read_seg), <- flat_map_concat_map.
      apply strict_reads. cbn. rewrite lock_eqb_refl. reflexivity. }
    destruct cold; exact G.
  - assert (G : strict [(LSegs, false)] (read_stats ++ flat_map read_window ks ++ unload false)).
    { cbn [read_stats app strict]. cbn [drop_held lock_eqb lock_eq_dec fst]. cbn. induction ks as [|k ks IH]; [reflexivity|].
      cbn [flat_map]. rewrite <- app_assoc. unfold read_window at 1. rewrite <- !app_assoc. cbn. apply strict_reads. exact IH. }
    destruct cold; exact G.
  - destruct (shared o) eqn:Eo; [destruct (HC eq_refl)|].
    assert (G : strict [(LSegs, true); (LUpdate, true)] ([Work o] ++ flat_map read_seg ks ++ unload true)).
    { cbn [app strict]. split; [exact Eo|]. split; [left; reflexivity|]. apply strict_reads. reflexivity. }
    destruct cold; exact G.
  - cbn [app strict]. destruct (shared o); [discriminate|]. split; [reflexivity|]. split; [left; reflexivity|]. reflexivity.
  - cbn [app strict shared]. split; [reflexivity|]. split; [left; reflexivity|]. reflexivity.
  - assert (G : strict [(LSegs, false); (LUpdate, true)] (read_stats ++ flat_map read_seg ks ++ unload true)).
    { cbn [read_stats app strict drop_held]. cbn. apply strict_reads. reflexivity. }
    destruct cold; exact G.
Qed.
Lemma solid_reads q ks : forall g h r, hot q h -> (forall g, solid q g h r) -> solid q g h (flat_map read_seg ks ++ r).
Proof.
  induction ks as [|[b i] ks IH]; intros g h r Hl Hs; [apply Hs|]. cbn [flat_map read_seg fst snd app solid drop_held]. rewrite lock_eqb_refl.
  split; [split; discriminate|]. split; [|apply IH; assumption]. destruct Hl as (A & B). split; [right; exact A|]. destruct B as [B|B]; [auto|]. right. right. exact B.
Qed.
Lemma solid_locked q cold ks : solid q false [] (prog_of (CLocked cold ks)).
Proof.
  assert (G : solid q false [(LSegs, false); (LUpdate, true)] (read_stats ++ flat_map read_seg ks ++ unload true)).
  { cbn [read_stats app solid drop_held]. cbn. split; [discriminate|]. apply solid_reads; [|intros g; exact Logic.I].
    split; [left; reflexivity|]. right. right. left. reflexivity. }
  cbn [prog_of]. revert G. generalize (read_stats ++ flat_map read_seg ks ++ unload true). intros tl G.
  destruct cold; cbn [ load app solid drop_held]; cbn; repeat (split; [discriminate|]); exact G.
Qed.
Lemma solid_read cold ks : solid true false [] (prog_of (CRead cold ks)).
Proof.
  assert (G : solid true false [(LSegs, false)] (read_stats ++ flat_map read_seg ks ++ unload false)).
  { cbn [read_stats app solid drop_held]. cbn. split; [discriminate|]. apply solid_reads; [|intros g; exact Logic.I].
    split; [left; reflexivity|]. left. reflexivity. }
  cbn [prog_of]. revert G. generalize (read_stats ++ flat_map read_seg ks ++ unload false). intros tl G.
  destruct cold; cbn [ load app solid drop_held]; cbn; repeat (split; [discriminate|]); exact G.
Qed.
Lemma one_reach q l xs c t x : Forall (fun x => call_ok x = true) xs -> reaches l xs c -> nth_error xs t = Some x -> solid q false [] (prog_of x) ->
  (q = true -> Forall (fun x => ~ changes_elements x) xs) -> exists th, nth_error (c_threads c) t = Some th /\ one q l c th.
Proof.
  intros H (s & Hs) Hx HS HQ.
  assert (G : sinv l c /\ frozen q c /\ exists th, nth_error (c_threads c) t = Some th /\ one q l c th); [|tauto].
  eapply (moves_ind (fun c => sinv l c /\ frozen q c /\ exists th, nth_error (c_threads c) t = Some th /\ one q l c th)); [| |exact Hs].
  - split; [apply sinv_start, H|]. split.
    + intros Q u th Hu. apply start_held in Hu as (y & Hy & ->). cbn. rewrite Forall_forall in H. specialize (HQ Q). rewrite Forall_forall in HQ.
      apply nth_error_In in Hy. apply strict_call; auto.
    + exists (mkT (prog_of x) [] false l []). split; [cbn; rewrite nth_error_map, Hx; reflexivity|]. split; [exact HS|]. left. reflexivity.
  - intros c1 u g p c2 (A & B & th & Ht & C) Hm. split; [eapply sinv_move; eassumption|]. split; [eapply frozen_step; eassumption|].
    eapply one_step; eassumption.
Qed.
Lemma one_moment q l xs c t x th ks : Forall (fun x => call_ok x = true) xs -> reaches l xs c -> nth_error xs t = Some x -> solid q false [] (prog_of x) ->
  (q = true -> Forall (fun x => ~ changes_elements x) xs) -> gets (prog_of x) = ks ->
  nth_error (c_threads c) t = Some th -> t_prog th = [] -> exists n l', moment l c n l' /\ reads_as th ks l'.
Proof.
  intros H HR Hx HS HQ Hk Ht Hp. destruct (one_reach _ _ _ _ _ _ H HR Hx HS HQ) as (th' & Ht' & _ & HO). assert (th' = th) by congruence. subst th'.
  pose proof (got_order _ _ _ HR _ _ _ Hx Ht) as GO. rewrite Hp in GO. cbn [gets flat_map] in GO. rewrite app_nil_r, Hk in GO. unfold reads_as.
  destruct HO as [HO|(n & l' & HM & HA & _)].
  - exists 0, l. split; [split; [lia|reflexivity]|]. rewrite <- GO, HO. reflexivity.
  - exists n, l'. split; [exact HM|]. rewrite <- GO, map_map. apply map_ext_in. intros e He. rewrite Forall_forall in HA. rewrite (HA _ He). destruct e as ((m & (b & i)) & v). destruct b; reflexivity.
Qed.

(** ** C79 *)
Lemma c79_locked l xs c t cold ks th : Forall (fun x => call_ok x = true) xs -> reaches l xs c -> nth_error xs t = Some (CLocked cold ks) ->
  nth_error (c_threads c) t = Some th -> t_prog th = [] -> exists n l', moment l c n l' /\ reads_as th ks l'.
Proof.
  intros H HR Hx. eapply one_moment with (q := false); [exact H|exact HR|exact Hx|apply solid_locked|discriminate|].
  cbn [prog_of]. rewrite !gets_app, gets_load, gets_reads. cbn. apply app_nil_r.
Qed.
Lemma c79_alone l xs c t cold ks th : Forall (fun x => call_ok x = true) xs -> Forall (fun x => ~ changes_elements x) xs -> reaches l xs c ->
  nth_error xs t = Some (CRead cold ks) -> nth_error (c_threads c) t = Some th -> t_prog th = [] -> exists n l', moment l c n l' /\ reads_as th ks l'.
Proof.
  intros H HQ HR Hx. eapply one_moment with (q := true); [exact H|exact HR|exact Hx|apply solid_read|auto|].
  cbn [prog_of]. rewrite !gets_app, gets_load, gets_reads. cbn. apply app_nil_r.
Qed.
Lemma copied_all th l' : reads_as th (score_keys l') l' -> copied th = ss_segs (l_scores l').
Proof.
  unfold reads_as, copied, score_keys. generalize (t_got th) as got. rewrite map_map. cbn [fst snd].
  set (f := fun e : nat * (bool * nat) * option seg => match snd e with Some s => [s] | None => [] end).
  assert (G : forall segs k got, map (fun e : nat * (bool * nat) * option seg => (snd (fst e), snd e)) got =
    map (fun x => ((false, x), nth_error segs (x - k))) (seq k (length segs)) -> flat_map f got = segs).
  { induction segs as [|s segs IH]; intros k got E; cbn [length seq map] in E.
    - apply map_eq_nil in E. subst got. reflexivity.
    - destruct got as [|e got]; [discriminate|]. cbn [map] in E. injection E as E1 E2 E3. cbn [flat_map]. unfold f at 1. rewrite E2, Nat.sub_diag.
      cbn [nth_error app]. f_equal. apply (IH (S k)). rewrite E3. apply map_ext_in. intros x Hx. apply in_seq in Hx.
      replace (x - k) with (S (x - S k)) by lia. reflexivity. }
  intros got E. apply (G _ 0). rewrite E. apply map_ext. intros x. rewrite Nat.sub_0_r. reflexivity.
Qed.
Lemma c79_clone merge split ns ni now th l' : reads_as th (score_keys l') l' -> clone_read merge split ns ni now (copied th) = clone_elements merge split ns ni now l'.
Proof. intros H. unfold clone_read. rewrite (copied_all _ _ H). reflexivity. Qed.
Lemma ops_ok_firstn merge split : forall ops n m, ops_ok merge split m ops -> ops_ok merge split m (firstn n ops).
Proof. induction ops as [|o ops IH]; intros [|n] m H; cbn in *; auto. destruct H as (A & B). auto. Qed.
Lemma c79_exact merge0 split0 l m xs c t cold ks th : reachable merge0 split0 l m -> Forall (fun x => call_ok x = true) xs ->
  Forall (fun x => ~ changes_elements x) xs -> reaches l xs c -> ops_ok merge0 split0 m (done_ops c) ->
  nth_error xs t = Some (CRead cold ks) -> nth_error (c_threads c) t = Some th -> t_prog th = [] ->
  exists n l', moment l c n l' /\ reachable merge0 split0 l' (spec_run m (firstn n (done_ops c))) /\ reads_as th ks l' /\
    (ks = score_keys l' -> forall merge split ns ni now, (merge < split) -> (2 <= merge + split) -> ns <> ""%string -> ni <> ""%string -> tick now ->
       sized (spec_run m (firstn n (done_ops c))) (fun n => (N.of_nat n < max_u32)%N) ->
       exists l2, clone_read merge split ns ni now (copied th) = Done l2 /\ verify l2 = true /\ verify_elements l2 = true /\ stored_in l2 = stored_in l').
Proof.
  intros HR H HQ Hc Hok Hx Ht Hp. destruct (c79_alone _ _ _ _ _ _ _ H HQ Hc Hx Ht Hp) as (n & l' & HM & HA). exists n, l'.
  assert (R : reachable merge0 split0 l' (spec_run m (firstn n (done_ops c)))).
  { destruct HM as (_ & HM). eapply run_reachable; [exact HR|apply ops_ok_firstn, Hok|exact HM]. }
  split; [exact HM|]. split; [exact R|]. split; [exact HA|]. intros -> merge split ns ni now A B C D E F. rewrite (c79_clone _ _ _ _ _ _ _ HA).
  destruct (c22_clone _ _ _ _ _ _ _ _ _ R A B C D E F) as (l2 & G1 & _ & G2 & G3 & G4). eauto 6.
Qed.
