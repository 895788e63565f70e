(** C66: updates while reads of the store fail. *)
From Coq Require Import Strings.String.
From Verif.Lib Require Import Prelude ListAux.
From Verif.Model Require Import Element Elements Segment List ReadFail.
From Verif.Spec Require Import RankSpec QuerySpec HistorySpec AnswerSpec ReadFailSpec.
From Verif.Proof Require Import ListThm UpdateReadThm.
From Verif.Thm Require Import Sample.
Open Scope N_scope.

(** whichever reads fail: an error exactly because of an index segment, and then nothing changed; otherwise a part of
    the batch is applied, elements whose segment cannot be read are skipped, old versions may stay *)
Theorem C66_update : forall merge split l m rdi rdp rdd rdo clk clki now sc elems,
  reachable merge split l m -> op_ok merge split m (OUpdate clk clki now sc elems) ->
  let '(l', ok) := update_elements_r rdi rdp rdd rdo clk clki now sc elems l in
  let ss := ss_segs (l_scores l) in
  (ok = false <-> unreadable rdi (fun s => exists id, In id (map e_id elems) /\ files s id) (ss_segs (l_index l))) /\
  (ok = false -> forall r, ranking_of (sin m) r -> stored_in l' = r /\ answers l' r) /\
  (ok = true -> exists applied skipped dup,
     Permutation elems (applied ++ skipped) /\
     ranked (stored_in l') /\
     (forall x, In x (stored_in l') <-> sin (sputs m (map (stamp clk) applied)) x \/ In x dup) /\
     (forall e, In e skipped -> ~ readable rdd ss e) /\
     (forall x, In x dup -> sin m x /\ In (e_id x) (map e_id applied) /\ rdp (e_id x) = false /\ rdo (e_id x) = false) /\
     (distinct_ids (stored_in l') -> dup = [] /\ answers l' (stored_in l'))).
Proof. exact c66_update. Qed.
Print Assumptions C66_update.

(** a score segment either can be read during the call or not: exactly what is stored afterwards *)
Theorem C66_exact : forall merge split l m rdi rdp rdd rdo rd clk clki now sc elems,
  reachable merge split l m -> op_ok merge split m (OUpdate clk clki now sc elems) ->
  let ss := ss_segs (l_scores l) in
  ~ unreadable rdi (fun s => exists id, In id (map e_id elems) /\ files s id) (ss_segs (l_index l)) ->
  (forall i, rdd i = rd i) ->
  (forall i s x, nth_error ss i = Some s -> In x (sg_elems s) -> rdp (e_id x) = rd i /\ rdo (e_id x) = rd i) ->
  exists l', update_elements_r rdi rdp rdd rdo clk clki now sc elems l = (l', true) /\ ranked (stored_in l') /\
    forall x, In x (stored_in l') <->
      (exists e, In e elems /\ x = stamp clk e /\ readable rd ss e) \/
      (sin m x /\ forall e, In e elems -> e_id e = e_id x -> ~ (readable rd ss e /\ readable rd ss x)).
Proof. exact c66_exact. Qed.
Print Assumptions C66_exact.

(** results of an update after which no ID is stored twice: an error, or true ranks of what is stored *)
Theorem C66_results : forall merge split l m rdi rdp rdd rdo clk clki now sc elems l' rdi2 rd2 nb sc1 sc2 radius,
  reachable merge split l m -> op_ok merge split m (OUpdate clk clki now sc elems) ->
  update_elements_r rdi rdp rdd rdo clk clki now sc elems l = (l', true) -> distinct_ids (stored_in l') ->
  let out := update_results_r rdp rdi2 rd2 nb sc1 sc2 l l' elems radius in
  out = Unread \/ exists res, out = Answer res /\
    NoDup (map (fun re => e_id (re_elem re)) res) /\
    (forall x, In x (map re_elem res) <-> In x (stored_in l') /\ In (e_id x) (map e_id elems)) /\
    Forall (fun re => true_rank (stored_in l') re /\ some_neighbours (stored_in l') radius re /\
      (re_before re = None -> m (e_id (re_elem re)) = None \/ rdp (e_id (re_elem re)) = false) /\
      forall b, re_before re = Some b -> m (e_id (re_elem re)) = Some (re_elem b) /\ rdp (e_id (re_elem re)) = true) res.
Proof. exact c66_results. Qed.
Print Assumptions C66_results.

(** no error, although nothing of the batch was stored *)
Theorem C66_skipped_refuted : exists merge split l m rdi rdp rdd rdo clk clki now sc elems l',
  reachable merge split l m /\ op_ok merge split m (OUpdate clk clki now sc elems) /\ elems <> [] /\
  update_elements_r rdi rdp rdd rdo clk clki now sc elems l = (l', true) /\ stored_in l' = stored_in l /\
  (forall e, In e elems -> ~ In (e_id e) (map e_id (stored_in l'))).
Proof. exact c66_skipped. Qed.
Print Assumptions C66_skipped_refuted.

(** no error, although an element is stored twice; lookups find the new version *)
Theorem C66_twice_refuted : exists merge split l m rdi rdp rdd rdo clk clki now sc elems l' x y,
  reachable merge split l m /\ op_ok merge split m (OUpdate clk clki now sc elems) /\
  update_elements_r rdi rdp rdd rdo clk clki now sc elems l = (l', true) /\
  In x (stored_in l') /\ In y (stored_in l') /\ e_id x = e_id y /\ e_score x <> e_score y /\
  map re_elem (get_elements [] [] l' [e_id x] 0) = [x].
Proof. exact c66_twice. Qed.
Print Assumptions C66_twice_refuted.

(** an error, although everything was stored *)
Theorem C66_error_refuted : exists merge split l m rdi rdp rdd rdo clk clki now sc elems l' rdi2 rd2 nb,
  reachable merge split l m /\ op_ok merge split m (OUpdate clk clki now sc elems) /\
  update_elements_r rdi rdp rdd rdo clk clki now sc elems l = (l', true) /\
  (forall e, In e elems -> ~ In (stamp clk e) (stored_in l) /\ In (stamp clk e) (stored_in l')) /\ elems <> [] /\
  update_results_r rdp rdi2 rd2 nb [] [] l l' elems 0 = Unread.
Proof. exact c66_failed_but_done. Qed.
Print Assumptions C66_error_refuted.

(** segment 1 of [[1;2;3];[4;5;6;7];[8;9;10]] cannot be read: of four elements, 1 moves to the unreadable segment and is
    skipped, 5 moves out of it and is stored twice, 11 is added to it and skipped, 9 is updated *)
Definition batch66 : elements := [mkE 50 1 [] 9 0; mkE 3 5 [] 1 150; mkE 60 11 [] 0 0; mkE 25 9 [] 0 0].
Definition l66 : lst := Eval vm_compute in
  fst (update_elements_r rall rno1_of rno1 rno1_of (fun _ => 200) (fun _ => 201) 202 [] batch66 l0).
Example C66_ex : reachable 2 4 l0 m0 /\ op_ok 2 4 m0 (OUpdate (fun _ => 200) (fun _ => 201) 202 [] batch66) /\
  update_elements_r rall rno1_of rno1 rno1_of (fun _ => 200) (fun _ => 201) 202 [] batch66 l0 = (l66, true) /\
  map (fun s => map e_id (sg_elems s)) (ss_segs (l_scores l66)) = [[1; 2; 3]; [4; 5; 6; 7]; [8; 9; 10; 5]] /\
  (forall i s x, nth_error (ss_segs (l_scores l0)) i = Some s -> In x (sg_elems s) -> rno1_of (e_id x) = rno1 i /\ rno1_of (e_id x) = rno1 i) /\
  ~ readable rno1 (ss_segs (l_scores l0)) (mkE 60 11 [] 0 0) /\ readable rno1 (ss_segs (l_scores l0)) (mkE 25 9 [] 0 0).
Proof.
  split; [exact l0_reach|]. split.
  { split; [apply distinct_by; vm_compute; reflexivity|]. split; [apply (forall_by srb); [exact srb_storable|vm_compute; reflexivity]|].
    split; [intros _; split; reflexivity|]. split; [intros _; split; reflexivity|]. split; reflexivity. }
  split; [vm_compute; reflexivity|]. split; [vm_compute; reflexivity|]. split; [|split].
  - intros i s x Hi Hx. assert (i < length (ss_segs (l_scores l0)))%nat as Hl by (apply nth_error_Some; rewrite Hi; discriminate); cbn in Hl.
    destruct i as [|[|[|i]]]; [| | |lia]; cbn in Hi; injection Hi as <-; cbn [sg_elems] in Hx;
      repeat (destruct Hx as [<-|Hx]; [split; reflexivity|]); destruct Hx.
  - intros C. specialize (C 1%nat _ eq_refl). assert (false = true); [|discriminate]. apply C. split; cbn; lia.
  - intros i s Hi. assert (i < length (ss_segs (l_scores l0)))%nat as Hl by (apply nth_error_Some; rewrite Hi; discriminate); cbn in Hl.
    destruct i as [|[|[|i]]]; [| | |lia]; cbn in Hi; injection Hi as <-; intros (A & B); cbn in A, B; try reflexivity; lia.
Qed.
(** index segment 1 cannot be read: an error, and the list is as before *)
Example C66_ex_index : snd (update_elements_r rno1 (fun _ => true) rall (fun _ => true) (fun _ => 200) (fun _ => 201) 202 [] [e_up5] l0) = false /\
  unreadable rno1 (fun s => exists id, In id (map e_id [e_up5]) /\ files s id) (ss_segs (l_index l0)).
Proof.
  split; [vm_compute; reflexivity|]. eexists 1%nat, _. split; [reflexivity|]. split; [|reflexivity].
  exists 5. split; [left; reflexivity|]. split; vm_compute; discriminate.
Qed.
(** no ID twice: the old version of 9 was not loaded before, so its old rank is missing *)
Example C66_ex_results : exists l' res,
  update_elements_r rall (fun _ => false) rall (fun _ => true) (fun _ => 200) (fun _ => 201) 202 [] [mkE 25 9 [] 0 0] l0 = (l', true) /\
  distinct_ids (stored_in l') /\ m0 9 <> None /\
  update_results_r (fun _ => false) rall rall (fun _ => rall) [] [] l0 l' [mkE 25 9 [] 0 0] 1 = Answer res /\
  map (fun re => (e_id (re_elem re), re_top re, re_before re)) res = [(9, 8%Z, None)].
Proof.
  eexists _, _. split; [vm_compute; reflexivity|]. split; [apply distinct_by; vm_compute; reflexivity|]. split; [vm_compute; discriminate|].
  split; vm_compute; reflexivity.
Qed.
