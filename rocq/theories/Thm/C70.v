(** C70: what is shown and stored after a write of a cached segment failed. *)
From Coq Require Import Strings.String.
From Verif.Lib Require Import Prelude ListAux.
From Verif.Model Require Import Element Elements Segment List Storage Fails Alias.
From Verif.Spec Require Import RankSpec QuerySpec HistorySpec AnswerSpec AliasSpec.
From Verif.Proof Require Import ListThm AliasP6 AliasP5.
From Verif.Thm Require Import Sample.
Open Scope N_scope.

(** an update: the counters of the complete call; in segments whose write failed, if cached, as many elements as before,
    each an old one or one of the batch *)
Theorem C70_update : forall merge split l m hs hi f r clk clki now sc e,
  reachable merge split l m -> op_ok merge split m (OUpdate clk clki now sc e) ->
  let full := update_elements clk clki now sc e l in
  let l' := fst (fst (update_live hs hi f r clk clki now sc e l)) in
  mixed hs (f_scores f) (part_update (fun x => exists y, In y e /\ x = stamp clk y)) (ss_segs (l_scores l)) (ss_segs (l_scores full)) (ss_segs (l_scores l')) /\
  mixed hi (f_index f) (part_update (fun x => exists y, In y e /\ e_score x = e_id y)) (ss_segs (l_index l)) (ss_segs (l_index full)) (ss_segs (l_index l')).
Proof. exact c70_update. Qed.
Print Assumptions C70_update.

(** a delete: exactly what cached segments show; the index is touched only if every score segment was written *)
Theorem C70_delete : forall hs hi f r now sc1 sc2 ids l,
  let full := delete_elements now sc1 sc2 ids l in
  let '(l', _, ok) := delete_live hs hi f r now sc1 sc2 ids l in
  mixed hs (f_scores f) part_delete (ss_segs (l_scores l)) (ss_segs (l_scores full)) (ss_segs (l_scores l')) /\
  (ok = true -> ss_segs (l_scores l') = ss_segs (l_scores full)) /\
  (ok = false /\ l_index l' = l_index l \/
   mixed hi (f_index f) part_delete (ss_segs (l_index l)) (ss_segs (l_index full)) (ss_segs (l_index l'))).
Proof. exact c70_delete. Qed.
Print Assumptions C70_delete.

(** an insert: complete, or an error with the chunks before the failed one complete, and exactly what cached segments
    show of the failed one *)
Theorem C70_insert : forall merge split l m hs hi f fm r now sch e,
  reachable merge split l m -> op_ok merge split m (OInsert now sch e) ->
  let '(l', _, ok) := insert_live hs hi f fm r now sch e l in
  insert now sch e l = Done l' \/
  ok = false /\ exists a c b l1 l2, e = a ++ c ++ b /\ (length c <= want_limit l)%nat /\
    ranking_of (sin (sputs m a)) (stored_in l1) /\ ranking_of (sin (sputs m (a ++ c))) (stored_in l2) /\
    let fs := f (length (c ++ b)) in let rs := r (length (c ++ b)) in
    mixed hs (f_scores fs) (part_insert (r_scores rs)) (ss_segs (l_scores l1)) (ss_segs (l_scores l2)) (ss_segs (l_scores l')) /\
    (l_index l' = l_index l1 \/
     mixed hi (f_index fs) (part_insert (r_index rs)) (ss_segs (l_index l1)) (ss_segs (l_index l2)) (ss_segs (l_index l'))).
Proof. exact c70_insert. Qed.
Print Assumptions C70_insert.

(** if no write fails, the calls on shared slices do what the calls of the other properties do *)
Theorem C70_clean : forall merge split l m hs hi f r, reachable merge split l m -> (forall n, all_kept (f n)) ->
  (forall clk clki now sc e, op_ok merge split m (OUpdate clk clki now sc e) ->
     exists w, update_live hs hi (f 0%nat) (r 0%nat) clk clki now sc e l = (update_elements clk clki now sc e l, w, true)) /\
  (forall now sc1 sc2 ids, exists w, delete_live hs hi (f 0%nat) (r 0%nat) now sc1 sc2 ids l = (delete_elements now sc1 sc2 ids l, w, true)) /\
  (forall now sch e, op_ok merge split m (OInsert now sch e) ->
     exists l' w, insert_live hs hi f (f 0%nat) r now sch e l = (l', w, true) /\ insert now sch e l = Done l').
Proof. exact c70_clean. Qed.
Print Assumptions C70_clean.

(** the store gets segments of the complete call, whatever is shown *)
Theorem C70_written : forall merge split l m hs hi f r, reachable merge split l m ->
  (forall clk clki now sc e, op_ok merge split m (OUpdate clk clki now sc e) ->
   let full := update_elements clk clki now sc e l in
   let w := snd (fst (update_live hs hi f r clk clki now sc e l)) in
   (forall k n, In (EPut k n) w -> k = hs /\ written (f_scores f) (ss_segs (l_scores full)) n \/ k = hi /\ written (f_index f) (ss_segs (l_index full)) n) /\
   (forall n, rewritten (f_scores f) (ss_segs (l_scores l)) (ss_segs (l_scores full)) n -> In (EPut hs n) w) /\
   (forall n, rewritten (f_index f) (ss_segs (l_index l)) (ss_segs (l_index full)) n -> In (EPut hi n) w)) /\
  (forall now sc1 sc2 ids,
   let full := delete_elements now sc1 sc2 ids l in
   let w := snd (fst (delete_live hs hi f r now sc1 sc2 ids l)) in
   (forall k n, In (EPut k n) w -> k = hs /\ written (f_scores f) (ss_segs (l_scores full)) n \/ k = hi /\ written (f_index f) (ss_segs (l_index full)) n) /\
   (forall n, rewritten (f_scores f) (ss_segs (l_scores l)) (ss_segs (l_scores full)) n -> In (EPut hs n) w)).
Proof. exact c70_written. Qed.
Print Assumptions C70_written.

(** nothing foreign is shown; a failed delete hides nothing that is to stay *)
Theorem C70_shown : forall merge split l m hs hi f r, reachable merge split l m ->
  (forall clk clki now sc e x, op_ok merge split m (OUpdate clk clki now sc e) ->
     In x (stored_in (fst (fst (update_live hs hi f r clk clki now sc e l)))) -> sin m x \/ In x (map (stamp clk) e)) /\
  (forall now sc1 sc2 ids x, let l' := fst (fst (delete_live hs hi f r now sc1 sc2 ids l)) in
     (In x (stored_in (delete_elements now sc1 sc2 ids l)) -> In x (stored_in l')) /\ (In x (stored_in l') -> In x (stored_in l))).
Proof. exact c70_shown. Qed.
Print Assumptions C70_shown.

(** a call without error has saved the metadata after everything else; an update reports nothing but that *)
Theorem C70_reported : forall hs hi f r l,
  (forall clk clki now sc e, let '(l', w, ok) := update_live hs hi f r clk clki now sc e l in
     (ok = true <-> f_smeta f = Kept /\ f_imeta f = Kept) /\
     (ok = true -> exists w0, w = w0 ++ [EMeta (l_scores l'); EMeta (l_index l')])) /\
  (forall now sc1 sc2 ids, let '(l', w, ok) := delete_live hs hi f r now sc1 sc2 ids l in
     ok = true -> f_smeta f = Kept /\ f_imeta f = Kept /\ exists w0, w = w0 ++ [EMeta (l_scores l'); EMeta (l_index l')]) /\
  (forall fs rs now sch e, let '(l', w, ok) := insert_live hs hi fs f rs now sch e l in
     ok = true -> f_smeta f = Kept /\ f_imeta f = Kept /\ exists w0, w = w0 ++ [EMeta (l_scores l'); EMeta (l_index l')]).
Proof. exact c70_reported. Qed.
Print Assumptions C70_reported.

Definition no_seg := mkSeg 0 0 0 0 0 0 0 ""%string [].
Definition ok_f := mkF (fun _ => Kept) (fun _ => Kept) Kept Kept.
Definition bad_f i := mkF (fun j => if Nat.eqb i j then Refused else Kept) (fun _ => Kept) Kept Kept.
Definition no_room := mkR (fun _ => []) (fun _ => []) 4.
Definition room7 := mkR (fun i => if Nat.eqb i 1 then [mkE 50 7 [] 0 100] else []) (fun _ => []) 4.
Definition live (x : lst * list ev * bool) : lst := fst (fst x).
Definition puts (x : lst * list ev * bool) : list ev := snd (fst x).
Definition rows (l : lst) := (map (fun s => map e_id (sg_elems s)) (ss_segs (l_scores l)), map (fun s => map e_id (sg_elems s)) (ss_segs (l_index l))).
Definition sent (w : list ev) := flat_map (fun e => match e with EPut _ s => [map e_id (sg_elems s)] | _ => [] end) w.

Definition d1 := Eval vm_compute in delete_live true true (bad_f 1) no_room 300 [] [] [4] l0.
Definition d2 := Eval vm_compute in update_live true true ok_f no_room (fun _ => 400) (fun _ => 401) 402 [] [mkE 50 6 [] 1 0] (live d1).
Definition u1 := Eval vm_compute in delete_live true true ok_f no_room 300 [] [] [4] l0.
Definition u2 := Eval vm_compute in update_live true true (bad_f 1) room7 (fun _ => 400) (fun _ => 401) 402 [] [mkE 60 11 [] 0 0] (live u1).
Definition u3 := Eval vm_compute in update_live true true ok_f no_room (fun _ => 500) (fun _ => 501) 502 [] [mkE 50 6 [] 1 0] (live u2).
Definition i2 := Eval vm_compute in insert_live true true (fun _ => bad_f 1) ok_f (fun _ => room7) 350 (fun _ => []) [mkE 60 11 [] 0 340] (live u1).

Example C70_delete_ex : rows l0 = ([[1; 2; 3]; [4; 5; 6; 7]; [8; 9; 10]], [[10; 9; 8]; [7; 6; 5]; [4; 3; 2]; [1]]) /\
  rows (live d1) = ([[1; 2; 3]; [5; 6; 7; 7]; [8; 9; 10]], [[10; 9; 8]; [7; 6; 5]; [4; 3; 2]; [1]]) /\ puts d1 = [] /\ snd d1 = false.
Proof. vm_compute. repeat split; reflexivity. Qed.
Example C70_update_ex : rows (live u1) = ([[1; 2; 3]; [5; 6; 7]; [8; 9; 10]], [[10; 9; 8]; [7; 6; 5]; [3; 2]; [1]]) /\
  rows (live u2) = ([[1; 2; 3]; [11; 5; 6]; [8; 9; 10]], [[11; 10; 9; 8]; [7; 6; 5]; [3; 2]; [1]]) /\ sent (puts u2) = [[11; 10; 9; 8]] /\ snd u2 = true.
Proof. vm_compute. repeat split; reflexivity. Qed.
Example C70_insert_ex : rows (live i2) = ([[1; 2; 3]; [11; 5; 6]; [8; 9; 10]], [[10; 9; 8]; [7; 6; 5]; [3; 2]; [1]]) /\ puts i2 = [] /\ snd i2 = false.
Proof. vm_compute. repeat split; reflexivity. Qed.
(** the spare cell of [room7] is what the delete leaves *)
Example C70_room_ex : let old := sg_elems (nth 1 (ss_segs (l_scores l0)) no_seg) in
  let x := sl_filter (fun e => negb (mem_id (e_id e) [4])) (sl_of [] old) in
  length (sl_cells x) = 4%nat /\ sl_len x = 3%nat /\ skipn (sl_len x) (sl_cells x) = r_scores room7 1.
Proof. vm_compute. repeat split; reflexivity. Qed.

(** a refused delete, then an update: an element that neither call names is stored twice *)
Theorem C70_twice_refuted : exists merge split l m ids now sc1 sc2 f r l1 w1 clk clki now2 sc e f2 r2 l2 w2 n x,
  reachable merge split l m /\ op_ok merge split m (ODelete now sc1 sc2 ids) /\ op_ok merge split m (OUpdate clk clki now2 sc e) /\
  delete_live true true f r now sc1 sc2 ids l = (l1, w1, false) /\ all_kept f2 /\
  update_live true true f2 r2 clk clki now2 sc e l1 = (l2, w2, true) /\
  sin m x /\ ~ In (e_id x) ids /\ ~ In (e_id x) (map e_id e) /\
  In (EPut true n) w2 /\ count_occ N.eq_dec (map e_id (sg_elems n)) (e_id x) = 2%nat /\ In n (ss_segs (l_scores l2)).
Proof.
  exists 2%nat, 4%nat, l0, m0, [4], 300, [], [], (bad_f 1), no_room, (live d1), (puts d1), (fun _ => 400), (fun _ => 401), 402, [], [mkE 50 6 [] 1 0],
    ok_f, no_room, (live d2), (puts d2), (nth 1 (ss_segs (l_scores (live d2))) no_seg), (mkE 50 7 [] 0 100).
  split; [exact l0_reach|]. split; [split; [repeat constructor; discriminate|split; reflexivity]|]. split.
  { split; [|split; [|split; [|split]]]; [apply distinct_by; vm_compute; reflexivity|apply (forall_by srb); [exact srb_storable|vm_compute; reflexivity]| | |]; try intros _; split; reflexivity. }
  split; [vm_compute; reflexivity|]. split; [repeat split|]. split; [vm_compute; reflexivity|]. split; [vm_compute; reflexivity|].
  split; [cbn; intros [C|[]]; discriminate|]. split; [cbn; intros [C|[]]; discriminate|].
  split; [apply (nth_error_In _ 1); vm_compute; reflexivity|]. split; [vm_compute; reflexivity|apply (nth_error_In _ 1); vm_compute; reflexivity].
Qed.
Print Assumptions C70_twice_refuted.

(** one refused write, no error of any call: an element that no call names is lost from memory and from the store *)
Theorem C70_lost_refuted : exists merge split l m ids now sc1 sc2 f r l1 w1 clk clki now2 e f2 r2 l2 w2 clk' clki' now3 e' r3 l3 w3 s n x,
  reachable merge split l m /\ op_ok merge split m (ODelete now sc1 sc2 ids) /\ all_kept f /\
  delete_live true true f r now sc1 sc2 ids l = (l1, w1, true) /\
  op_ok merge split m (OUpdate clk clki now2 [] e) /\ (forall i, f_scores f2 i <> Unsure) /\ (forall i, f_scores f2 i = Refused -> i = 1%nat) /\
  update_live true true f2 r2 clk clki now2 [] e l1 = (l2, w2, true) /\
  op_ok merge split m (OUpdate clk' clki' now3 [] e') /\ update_live true true f r3 clk' clki' now3 [] e' l2 = (l3, w3, true) /\
  sin m x /\ ~ In (e_id x) (ids ++ map e_id e ++ map e_id e') /\ In x (stored_in l1) /\
  ~ In (e_id x) (map e_id (stored_in l2)) /\ ~ In (e_id x) (map e_id (stored_in l3)) /\
  In s (ss_segs (l_scores l1)) /\ In x (sg_elems s) /\ In (EPut true n) w3 /\ ss_id (l_scores l3) = ss_id (l_scores l1) /\
  In n (ss_segs (l_scores l3)) /\ sg_id n = sg_id s /\ sg_parent n = sg_parent s.
Proof.
  exists 2%nat, 4%nat, l0, m0, [4], 300, [], [], ok_f, no_room, (live u1), (puts u1), (fun _ => 400), (fun _ => 401), 402, [mkE 60 11 [] 0 0],
    (bad_f 1), room7, (live u2), (puts u2), (fun _ => 500), (fun _ => 501), 502, [mkE 50 6 [] 1 0], no_room, (live u3), (puts u3),
    (nth 1 (ss_segs (l_scores (live u1))) no_seg), (nth 1 (ss_segs (l_scores (live u3))) no_seg), (mkE 50 7 [] 0 100).
  assert (O : forall a b c e, (0 < a < max_u32) -> (0 < b < max_u32) -> (0 < c < max_u32) -> forallb srb [e] = true -> op_ok 2 4 m0 (OUpdate (fun _ => a) (fun _ => b) c [] [e])).
  { intros a b c e Ha Hb Hc He. split; [repeat constructor; intros []|]. split; [apply (forall_by srb); [exact srb_storable|exact He]|]. split; [intros _; exact Ha|]. split; [intros _; exact Hb|exact Hc]. }
  split; [exact l0_reach|]. split; [split; [repeat constructor; discriminate|split; reflexivity]|]. split; [repeat split|]. split; [vm_compute; reflexivity|].
  split; [apply O; try split; reflexivity|]. split; [intros i; unfold bad_f; cbn [f_scores]; destruct (Nat.eqb 1 i); discriminate|].
  split; [intros i; unfold bad_f; cbn [f_scores]; destruct (Nat.eqb_spec 1 i); [auto|discriminate]|]. split; [vm_compute; reflexivity|].
  split; [apply O; try split; reflexivity|]. split; [vm_compute; reflexivity|]. split; [vm_compute; reflexivity|].
  split; [cbn; intros [C|[C|[C|[]]]]; discriminate|]. split; [apply (nth_error_In _ 5); vm_compute; reflexivity|].
  assert (NI : forall v l, existsb (N.eqb v) l = false -> ~ In v l).
  { intros v k Hk C. assert (existsb (N.eqb v) k = true) by (apply existsb_exists; exists v; split; [exact C|apply N.eqb_refl]). congruence. }
  split; [apply NI; vm_compute; reflexivity|]. split; [apply NI; vm_compute; reflexivity|].
  split; [apply (nth_error_In _ 1); vm_compute; reflexivity|]. split; [apply (nth_error_In _ 2); vm_compute; reflexivity|].
  split; [apply (nth_error_In _ 1); vm_compute; reflexivity|]. split; [vm_compute; reflexivity|]. split; [apply (nth_error_In _ 1); vm_compute; reflexivity|].
  split; vm_compute; reflexivity.
Qed.
Print Assumptions C70_lost_refuted.
