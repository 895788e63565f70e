(** C82: the segments of a list are released from memory while the list is used. *)
From Verif.Lib Require Import Prelude ListAux.
From Verif.Model Require Import Release.
From Verif.Spec Require Import ReleaseSpec.
From Verif.Proof Require Import ReleaseP ReleaseP2.
Open Scope nat_scope.

(** No lock is ever unlocked that is not locked, whatever the moment at which a minute is over. *)
Theorem C82_no_fault : forall c, vexec any_v c -> v_fault c = false.
Proof. exact (no_fault_ok any_v). Qed.
Print Assumptions C82_no_fault.
(** A call works on the segments that the list has in memory: they are not released or loaded a
    second time under it.  For calls that hold the update lock this is so even if lists are set up anew. *)
Theorem C82_current : forall c i k p g, vexec no_reset c -> nth_error (v_users c) i = Some (k, p) -> works_on p = Some g -> v_mem c = Some g.
Proof. exact current_ok. Qed.
Print Assumptions C82_current.
Theorem C82_current_upd : forall c i k p g, vexec any_v c -> nth_error (v_users c) i = Some (k, p) -> v_upd k = true -> works_on p = Some g -> v_mem c = Some g.
Proof. exact current_upd_ok. Qed.
Print Assumptions C82_current_upd.
(** A release that is done has emptied the memory at a moment at which no call worked on it and
    its caller was still there; after its caller has gone it leaves the memory alone. *)
Theorem C82_emptied : forall c j r c' r', vexec any_v c -> nth_error (v_rels c) j = Some r -> r_done r = false -> vstep c (V_g j) = Some c' ->
  nth_error (v_rels c') j = Some r' -> r_done r' = true ->
  r_m r <> MRet /\ v_mem c' = None /\ forall i k p, nth_error (v_users c') i = Some (k, p) -> works_on p = None.
Proof. exact emptied_ok. Qed.
Print Assumptions C82_emptied.
Theorem C82_late : forall c j r c', vexec any_v c -> nth_error (v_rels c) j = Some r -> r_m r = MRet -> vstep c (V_g j) = Some c' -> v_mem c' = v_mem c.
Proof. exact late_ok. Qed.
Print Assumptions C82_late.
(** The caller of a release can always return by itself, once its minute is over. *)
Theorem C82_returns : forall c j r, vexec any_v c -> nth_error (v_rels c) j = Some r ->
  exists l c' r', length l <= 2 /\ (forall x, In x l -> of_caller j x) /\ vplay c l = Some c' /\ nth_error (v_rels c') j = Some r' /\ r_m r' = MRet.
Proof. exact returns_ok. Qed.
Print Assumptions C82_returns.
(** If all calls get on with what they do, everything ends: only so many steps are possible, and
    when none is, all calls and all releases have ended and all locks are free.  No minute needs to
    be over for that, and none prevents it. *)
Theorem C82_bounded : forall c, exists n, forall l c', (forall x, In x l -> own_time x) -> vplay c l = Some c' -> length l <= n.
Proof. exact bounded_ok. Qed.
Print Assumptions C82_bounded.
Theorem C82_ends : forall c, vexec any_v c -> (forall x, own x -> vstep c x = None) -> over c /\ all_free c.
Proof. exact stuck_ok. Qed.
Print Assumptions C82_ends.
(** The timeout does not help those that wait behind a release: as long as a reader goes on, a
    release that waits for it keeps waiting, and no other call gets to work, whatever minutes are over. *)
Theorem C82_waits : forall c h k g j r l c', vexec any_v c -> nth_error (v_users c) h = Some (k, UUse g) -> nth_error (v_rels c) j = Some r -> r_g r = GPend ->
  (forall x, In x l -> spares h x) -> vplay c l = Some c' ->
  (exists r', nth_error (v_rels c') j = Some r' /\ r_g r' = GPend) /\
  forall i, (forall k p, nth_error (v_users c) i = Some (k, p) -> not_yet p = true) -> forall k p, nth_error (v_users c') i = Some (k, p) -> not_yet p = true.
Proof. exact waits_ok. Qed.
Print Assumptions C82_waits.
(** Any number of releases can have timed out and still have a goroutine that waits. *)
Theorem C82_piles : forall n, exists c, vexec any_v c /\ length (v_rels c) = S n /\ forall j r, nth_error (v_rels c) j = Some r -> r_m r = MRet /\ r_g r <> GEnd /\ r_done r = false.
Proof. exact piles_ok. Qed.
Print Assumptions C82_piles.

(** Call 0 reads for a long time; a release waits for it and times out; call 1 comes. *)
Definition slow82 : list vchoice := reading ++ [V_release; V_g 0; V_g 0; V_g 0; V_time 0; V_m 0].
Definition late82 : list vchoice := [V_call (VRead false); V_u 1 AGo; V_u 1 AGo].
Definition run82 (l : list vchoice) : vcfg := match vplay vstart l with Some c => c | None => vstart end.
Lemma runs82 (ok : vchoice -> Prop) l : (forall x, In x l -> ok x) -> match vplay vstart l with Some _ => true | None => false end = true -> vexec ok (run82 l).
Proof.
  intros O P. unfold run82. destruct (vplay vstart l) as [c|] eqn:E; [|discriminate P]. apply (play_exec ok l vstart); [apply Vx_nil|exact O|exact E].
Qed.
(** Refuted: that other calls can go on once the release has timed out.  A second read, which the
    first one would not keep waiting, waits for as long as the first one goes on. *)
Theorem C82_timeout_refuted : exists l c h i, vplay vstart l = Some c /\
  (exists r, nth_error (v_rels c) 0 = Some r /\ r_m r = MRet /\ r_canc r = true) /\
  (forall l2 c2, (forall x, In x l2 -> spares h x) -> vplay c l2 = Some c2 -> exists p, nth_error (v_users c2) i = Some (VRead false, p) /\ not_yet p = true) /\
  exists c3 c4, vplay vstart (filter no_release l) = Some c3 /\ vplay c3 [V_u i AGo; V_u i AGo; V_u i AGo] = Some c4 /\ nth_error (v_users c4) i = Some (VRead false, UEnd).
Proof.
  exists (slow82 ++ late82), (run82 (slow82 ++ late82)), 0, 1.
  split; [vm_compute; reflexivity|]. split; [eexists; vm_compute; repeat split|]. split.
  - intros l2 c2 SP P. assert (X : vexec any_v (run82 (slow82 ++ late82))) by (apply runs82; [intros x _; exact Logic.I|vm_compute; reflexivity]).
    assert (HH : nth_error (v_users (run82 (slow82 ++ late82))) 0 = Some (VRead false, UUse 0)) by (vm_compute; reflexivity).
    assert (RR : nth_error (v_rels (run82 (slow82 ++ late82))) 0 = Some (mkRel GPend MRet true false true false)) by (vm_compute; reflexivity).
    destruct (waits_ok _ 0 _ _ 0 _ l2 c2 X HH RR eq_refl SP P) as (_ & W).
    assert (K : exists p, nth_error (v_users c2) 1 = Some (VRead false, p)).
    { assert (K0 : exists p, nth_error (v_users (run82 (slow82 ++ late82))) 1 = Some (VRead false, p)) by (eexists; vm_compute; reflexivity).
      clear - K0 P. revert P K0. generalize (run82 (slow82 ++ late82)). induction l2 as [|x l2 IH]; intros c P (p & K0); cbn [vplay] in P; [injection P as <-; exists p; exact K0|].
      destruct (vstep c x) as [c1|] eqn:S; [|discriminate P]. apply (IH c1 P). destruct (keeps_kind _ _ _ _ _ _ S K0) as (p' & H). exists p'. exact H. }
    destruct K as (p & K). exists p. split; [exact K|]. apply (W 1) with (k := VRead false); [|exact K].
    intros k0 p0 E0. vm_compute in E0. injection E0 as <- <-. reflexivity.
  - eexists; eexists. split; [vm_compute; reflexivity|]. split; vm_compute; reflexivity.
Qed.
Print Assumptions C82_timeout_refuted.
(** Refuted: that every call works on the segments that the list has in memory.  Repair sets a
    list up anew after a failed load, without loadingLock: a call that has loaded the segments and is about to get its read lock
    works on a copy that is no longer that of the list. *)
Definition reset82 : list vchoice :=
  [V_call (VRead false); V_u 0 AGo; V_u 0 AGo; V_u 0 AGo; V_u 0 AGo; V_u 0 AGo; V_u 0 AGo; V_u 0 AGo;
   V_call VReset; V_u 1 AGo; V_u 1 AGo; V_u 1 AGo; V_u 1 AGo; V_u 1 AGo; V_u 0 AGo].
Theorem C82_current_refuted : exists c i g h, vexec any_v c /\ nth_error (v_users c) i = Some (VRead false, UUse g) /\ v_mem c = Some h /\ h <> g.
Proof.
  exists (run82 reset82), 0, 0, 1. split; [apply runs82; [intros x _; exact Logic.I|vm_compute; reflexivity]|].
  split; [vm_compute; reflexivity|]. split; [vm_compute; reflexivity|discriminate].
Qed.
Print Assumptions C82_current_refuted.

(** A release that empties the memory between two reads, the second of which loads again. *)
Definition calm82 : list vchoice := reading ++ [V_u 0 AGo; V_release; V_g 0; V_g 0; V_g 0; V_g 0; V_g 0; V_m 0;
  V_call (VRead true); V_u 1 AGo; V_u 1 AGo; V_u 1 AGo; V_u 1 AGo; V_u 1 AGo; V_u 1 AGo; V_u 1 AGo; V_u 1 AGo].
Example calm82_ok : vexec no_reset (run82 calm82) /\ nth_error (v_users (run82 calm82)) 1 = Some (VRead true, UUse 1) /\ v_mem (run82 calm82) = Some 1 /\
  nth_error (v_rels (run82 calm82)) 0 = Some (mkRel GEnd MRet false false false true).
Proof.
  split; [|vm_compute; repeat split]. apply runs82; [|vm_compute; reflexivity].
  intros x H. vm_compute in H. repeat (destruct H as [<-|H]; [exact Logic.I|]). destruct H.
Qed.
(** A release that finds loadingLock taken, times out, and later takes it and gives it back. *)
Example busy82 : exists c, vplay vstart ([V_call (VRead false); V_u 0 AGo; V_u 0 AGo; V_release; V_time 0; V_m 0] ++ repeat (V_u 0 AGo) 6 ++ [V_g 0; V_g 0]) = Some c /\
  v_load c = false /\ v_mem c = Some 0 /\ nth_error (v_rels c) 0 = Some (mkRel GEnd MRet false false true false).
Proof. eexists. split; [vm_compute; reflexivity|]. vm_compute. repeat split. Qed.
(** The state of [slow82]: when the reader ends, all ends. *)
Example after82 : exists c, vplay (run82 (slow82 ++ late82)) [V_u 0 AGo; V_g 0; V_g 0; V_u 1 AGo; V_u 1 AGo; V_u 1 AGo] = Some c /\
  v_users c = [(VRead false, UEnd); (VRead false, UEnd)] /\ v_read c = 0 /\ v_w c = WFree /\ v_load c = false /\ v_mem c = Some 0.
Proof. eexists. split; [vm_compute; reflexivity|]. vm_compute. repeat split. Qed.
(** What C82_no_fault excludes: giving back a lock that is not held is noticed, for each of the locks, and not forgotten. *)
Example seen82 : forall c,
  (v_load c = false -> v_fault (un_load c) = true) /\ (v_lockupd c = false -> v_fault (un_upd c) = true) /\
  (v_read c = 0 -> v_fault (un_read c) = true) /\ (v_w c <> WHeld -> v_fault (un_write c) = true) /\
  (v_fault c = true -> v_fault (un_load c) = true /\ v_fault (un_upd c) = true /\ v_fault (un_read c) = true /\ v_fault (un_write c) = true).
Proof.
  intros c. unfold un_load, un_upd, un_read, un_write. cbn [v_fault]. split; [intros ->; apply orb_true_r|]. split; [intros ->; apply orb_true_r|].
  split; [intros ->; apply orb_true_r|]. split; [|intros ->; auto]. destruct (v_w c); intros H; try apply orb_true_r. contradiction.
Qed.
