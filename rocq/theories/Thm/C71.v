(** C71: a split or merge pass while writes fail. *)
From Coq Require Import Strings.String.
From Verif.Lib Require Import Prelude ListAux.
From Verif.Model Require Import Element Elements Segment List Fails PassFail.
From Verif.Spec Require Import RankSpec QuerySpec HistorySpec AnswerSpec ReadFailSpec PassSpec.
From Verif.Proof Require Import HistoryP ListThm NewP PassThm.
From Verif.Thm Require Import Sample.
Open Scope N_scope.

(** which writes end a pass, and what is stored then *)
Theorem C71_pass : forall merge split l m hs hx f mg now, reachable merge split l m -> tick now ->
  (split_w hs hx f mg now l = Exhausted /\
   (2 ^ 32 < ss_next (l_scores l) + N.of_nat (length (ss_segs (l_scores l))) \/
    2 ^ 32 < ss_next (l_index l) + N.of_nat (length (ss_segs (l_index l))))) \/
  exists l' e, split_w hs hx f mg now l = Done (l', e) /\ (all_kept f -> e = PAll) /\
    match e with
    | PAll => step l (OSplit mg now) = Done l'
    | PMeta => step l (OSplit mg now) = Done l' /\ (p_ms f <> Kept \/ p_mx f <> Kept)
    | PUpdate => stored_in l' = stored_in l /\ heals l' /\ exists i, p_upd f i <> Kept
    | PIndex w => stored_in l' = stored_in l /\ heals l' /\ ended_by (p_xa f) (p_xb f) w <> Kept
    | PScores w => l_index l' = l_index l /\ ended_by (p_sa f) (p_sb f) w <> Kept /\ len l' = len l /\
        exists u v x, stored_in l = u ++ v ++ x /\
          stored_in l' = u ++ (if misses hs (ended_by (p_sa f) (p_sb f) w) w then [] else v) ++ x /\
          forall k, In k (locked_at w) \/ In k (missing_at w) ->
            exists s, nth_error (ss_segs (l_scores l')) k = Some s /\ sg_n s = length v /\ sg_elems s = []
    end.
Proof. exact c71_pass. Qed.
Print Assumptions C71_pass.

(** no sequence of calls on any list stores what was neither stored nor given to it *)
Theorem C71_nothing_new : forall ops l l' x, run l ops = Done l' -> In x (stored_in l') ->
  In x (stored_in l) \/ exists o, In o ops /\ In x (given o).
Proof. exact c71_nothing_new. Qed.
Print Assumptions C71_nothing_new.

(** what a merge hid no later calls bring back, unless it is given to them *)
Theorem C71_gone : forall merge split l m hs hx f mg now l' i, reachable merge split l m -> tick now ->
  split_w hs hx f mg now l = Done (l', PScores (WMerge i)) -> misses hs (p_sa f i) (WMerge i) = true ->
  exists hidden, (forall x, In x (stored_in l) <-> In x (stored_in l') \/ In x hidden) /\
    len l' = len l /\ length (stored_in l) = (length (stored_in l') + length hidden)%nat /\
    forall ops l2 x, In x hidden -> (forall o, In o ops -> ~ In x (given o)) -> run l' ops = Done l2 -> ~ In x (stored_in l2).
Proof. exact c71_gone. Qed.
Print Assumptions C71_gone.

Definition all_f (i : nat) : fate := Kept.
Definition bad (k : nat) (f : fate) (i : nat) : fate := if Nat.eqb i k then f else Kept.
Definition pf (sa sb u xa xb : nat -> fate) : pass_fates := mkPF sa sb u xa xb Kept Kept.
Definition ended (o : outcome (lst * pass_end)) : lst := match o with Done (l, _) => l | _ => l0 end.
Definition ids_in (l : list seg) : list (nat * list N) := map (fun s => (sg_n s, map e_id (sg_elems s))) l.
(** two segments with one element each *)
Definition del71 : op := ODelete 300 [] [] [1; 2; 4; 5; 6].
Definition m71 : smap := spec_step m0 del71.
Definition l71 : lst := Eval vm_compute in done (step l0 del71).
Lemma l71_reach : reachable 2 4 l71 m71.
Proof.
  apply (R_step 2 4 l0 m0 del71 l71 l0_reach); [|vm_compute; reflexivity]. split; [|split; reflexivity].
  apply (forall_by (fun v => v <=? max_u64)); [intros x; apply N.leb_le|vm_compute; reflexivity].
Qed.
Example C71_merge_ex : ids_in (ss_segs (l_scores l71)) = [(1%nat, [3]); (1%nat, [7]); (3%nat, [8; 9; 10])] /\
  ids_in (ss_segs (l_scores (ended (split_w true true (pf (bad 1 Refused) all_f all_f all_f all_f) true 400 l71)))) = [(2%nat, [3]); (3%nat, [8; 9; 10])] /\
  ids_in (ss_segs (l_scores (ended (split_w true true (pf (bad 1 Unsure) all_f all_f all_f all_f) true 400 l71)))) = [(2%nat, [3]); (3%nat, [8; 9; 10])] /\
  ids_in (ss_segs (l_scores (ended (split_w false true (pf (bad 1 Unsure) all_f all_f all_f all_f) true 400 l71)))) = [(2%nat, [3; 7]); (3%nat, [8; 9; 10])].
Proof. vm_compute. repeat split; reflexivity. Qed.
Example C71_split_ex : ids_in (ss_segs (l_scores (ended (split_w true true (pf (bad 1 Refused) all_f all_f all_f all_f) true 400 l1)))) =
    [(2%nat, [2; 3]); (3%nat, [11; 12; 5; 4; 6; 7]); (3%nat, []); (4%nat, [8; 9; 10; 1])] /\
  ids_in (ss_segs (l_scores (ended (split_w true true (pf all_f (bad 1 Refused) all_f all_f all_f) true 400 l1)))) =
    [(2%nat, [2; 3]); (3%nat, [11; 12; 5]); (3%nat, []); (4%nat, [8; 9; 10; 1])] /\
  ids_in (ss_segs (l_index (ended (split_w true true (pf all_f all_f all_f all_f (bad 0 Refused)) true 400 l1)))) =
    [(3%nat, [12; 11; 10; 9; 8]); (2%nat, [9; 8]); (3%nat, [7; 6; 5]); (3%nat, [4; 3; 2]); (1%nat, [1])].
Proof. vm_compute. repeat split; reflexivity. Qed.

(** a merge, one refused write: 7 is no longer stored while Len counts it, and after an update and Repair it is gone *)
Definition lost71 : lst := Eval vm_compute in ended (split_w true true (pf (bad 1 Refused) all_f all_f all_f all_f) true 400 l71).
Definition later71 : list op := [OUpdate (fun _ => 500) (fun _ => 501) 502 [] [mkE 60 11 [] 0 0]; ORepair "S2" "I2" 600 (fun _ => []) [] [] (fun _ => []) 0].
Definition after71 : lst := Eval vm_compute in done (run lost71 later71).
Lemma no_id v l : existsb (fun x => e_id x =? v) l = false -> forall x, In x l -> e_id x <> v.
Proof. intros H x Hx C. assert (existsb (fun x => e_id x =? v) l = true) by (apply existsb_exists; exists x; split; [exact Hx|apply N.eqb_eq, C]). congruence. Qed.
Definition good71 : lst := Eval vm_compute in done (run l71 (firstn 1 later71)).
Lemma up71_ok : op_ok 2 4 m71 (nth 0 later71 OReload).
Proof.
  split; [apply distinct_by; vm_compute; reflexivity|]. split; [apply (forall_by srb); [exact srb_storable|vm_compute; reflexivity]|].
  split; [intros _; split; reflexivity|]. split; [intros _; split; reflexivity|split; reflexivity].
Qed.
Lemma good71_reach : reachable 2 4 good71 (spec_step m71 (nth 0 later71 OReload)).
Proof. apply (R_step 2 4 l71 m71 _ good71 l71_reach up71_ok). vm_compute. reflexivity. Qed.
Lemma sized71 : sized (spec_step m71 (nth 0 later71 OReload)) (fun n => N.of_nat n < max_u32 /\ build_sizes 2 4 0 n).
Proof.
  intros r Hr. rewrite (ranking_unique _ _ _ Hr (reach_ranking _ _ _ _ good71_reach)).
  split; [vm_compute; reflexivity|]. split; [lia|]. change (length (stored_in good71)) with 6%nat. lia.
Qed.
Theorem C71_merge_refuted : exists merge split l m f mg now l' i ops l2 x, reachable merge split l m /\ tick now /\
  split_w true true f mg now l = Done (l', PScores (WMerge i)) /\ (forall j, p_sa f j <> Kept -> j = i) /\
  ops_ok merge split m ops /\ run l' ops = Done l2 /\ sin m x /\ len l' = length (stored_in l) /\
  (forall y, In y (stored_in l') -> e_id y <> e_id x) /\ (forall y, In y (stored_in l2) -> e_id y <> e_id x).
Proof.
  exists 2%nat, 4%nat, l71, m71, (pf (bad 1 Refused) all_f all_f all_f all_f), true, 400, lost71, 1%nat, later71, after71, (mkE 50 7 [] 0 100).
  split; [exact l71_reach|]. split; [split; reflexivity|]. split; [vm_compute; reflexivity|].
  split; [intros j; cbn; unfold bad; destruct (Nat.eqb_spec j 1); [auto|congruence]|].
  split.
  { split; [|split; [|exact Logic.I]].
    - exact up71_ok.
    - split; [discriminate|]. split; [discriminate|]. split; [split; reflexivity|]. exact sized71. }
  split; [vm_compute; reflexivity|]. split; [vm_compute; reflexivity|]. split; [vm_compute; reflexivity|].
  split; apply no_id; vm_compute; reflexivity.
Qed.
Print Assumptions C71_merge_refuted.

(** a split, one refused write: the elements moved are not in the store, and the segment that should hold them cannot be read *)
Theorem C71_split_refuted : exists merge split l m f mg now l' i k x, reachable merge split l m /\ tick now /\
  split_w true true f mg now l = Done (l', PScores (WSplit i true [] [k])) /\ (forall j, p_sb f j <> Kept -> j = i) /\ (forall j, p_sa f j = Kept) /\
  sin m x /\ len l' = length (stored_in l) /\ (forall y, In y (stored_in l') -> e_id y <> e_id x).
Proof.
  exists 2%nat, 4%nat, l1, m1, (pf all_f (bad 1 Refused) all_f all_f all_f), true, 400, (ended (split_w true true (pf all_f (bad 1 Refused) all_f all_f all_f) true 400 l1)),
    1%nat, 2%nat, (mkE 50 6 [] 0 100).
  split; [exact l1_reach|]. split; [split; reflexivity|]. split; [vm_compute; reflexivity|].
  split; [intros j; cbn; unfold bad; destruct (Nat.eqb_spec j 1); [auto|congruence]|]. split; [reflexivity|].
  split; [vm_compute; reflexivity|]. split; [vm_compute; reflexivity|]. apply no_id; vm_compute; reflexivity.
Qed.
Print Assumptions C71_split_refuted.

(** one refused write of the index, all else done: an update of one element then stores it twice *)
Theorem C71_index_refuted : exists merge split l m f mg now l' o l2 v, reachable merge split l m /\ tick now /\
  split_w false false f mg now l = Done (l', PUpdate) /\ (forall j, p_upd f j <> Kept -> j = 1%nat) /\ heals l' /\
  op_ok merge split m o /\ step l' o = Done l2 /\ count_occ N.eq_dec (map e_id (stored_in l2)) v = 2%nat.
Proof.
  destruct (C71_pass 2 4 l1 m1 false false (pf all_f all_f (bad 1 Refused) all_f all_f) true 400 l1_reach) as [(C & _)|(l' & e & E & _ & B)]; [split; reflexivity|vm_compute in C; discriminate|].
  assert (Ee : e = PUpdate) by (vm_compute in E; congruence). subst e. destruct B as (_ & Hh & _).
  exists 2%nat, 4%nat, l1, m1, (pf all_f all_f (bad 1 Refused) all_f all_f), true, 400, l', (OUpdate (fun _ => 500) (fun _ => 501) 502 [] [mkE 95 6 [] 0 0]),
    (done (step l' (OUpdate (fun _ => 500) (fun _ => 501) 502 [] [mkE 95 6 [] 0 0]))), 6.
  split; [exact l1_reach|]. split; [split; reflexivity|]. split; [exact E|].
  split; [intros j; cbn; unfold bad; destruct (Nat.eqb_spec j 1); [auto|congruence]|]. split; [exact Hh|]. split.
  { split; [apply distinct_by; vm_compute; reflexivity|]. split; [apply (forall_by srb); [exact srb_storable|vm_compute; reflexivity]|].
    split; [intros _; split; reflexivity|]. split; [intros _; split; reflexivity|split; reflexivity]. }
  vm_compute in E. injection E as <-. split; vm_compute; reflexivity.
Qed.
Print Assumptions C71_index_refuted.
