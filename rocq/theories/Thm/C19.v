(** C19: repair. *)
From Coq Require Import Strings.String Strings.Byte.
From Verif.Lib Require Import Prelude ListAux Bytes.
From Verif.Model Require Import Element Elements Segment List Access Server.
From Verif.Spec Require Import RankSpec QuerySpec HistorySpec AnswerSpec RepairSpec.
From Verif.Proof Require Import ListThm ResultP DropP ProgressP RepairReq.
From Verif.Thm Require Import Sample.
Open Scope N_scope.

(** [l] is arbitrary: nothing is assumed of order, bounds, counters, index or
    duplicates; [rd] says which segments can be read. *)
Theorem C19_repair : forall l rd ns ni now scd sca sc sch want, (l_merge l < l_split l)%nat ->
  build_sizes (l_merge l) (l_split l) want (length (stored_in l)) ->
  (forall x, loadable rd (ss_segs (l_scores l)) x -> stored x) ->
  tick now -> ns <> ""%string -> ni <> ""%string -> N.of_nat (length (stored_in l)) < max_u32 ->
  exists l', repair ns ni now rd scd sca sc sch want l = Done l' /\
    verify l' = true /\ verify_elements l' = true /\
    let r := stored_in l' in
    ranked r /\ distinct_ids r /\ answers l' r /\
    (forall x, In x r -> loadable rd (ss_segs (l_scores l)) x) /\
    (forall x, loadable rd (ss_segs (l_scores l)) x -> exists y, In y r /\ e_id y = e_id x /\ e_upd x <= e_upd y).
Proof. exact c19_repair. Qed.
Print Assumptions C19_repair.

(** On a healthy list nothing changes. *)
Theorem C19_healthy : forall merge split l m ns ni now scd sca sc sch want, reachable merge split l m ->
  op_ok merge split m (ORepair ns ni now scd sca sc sch want) ->
  exists l', repair ns ni now (fun _ => true) scd sca sc sch want l = Done l' /\ stored_in l' = stored_in l.
Proof. exact c19_noop. Qed.
Print Assumptions C19_healthy.

(** Unordered, duplicated across segments, one segment unreadable, counters wrong. *)
Definition wreck : lst := mkL 2 4 "S" "I"
  (mkSegs "S" [mkSeg 1 50 9 0 0 77 1 "S" [mkE 1 1 [] 0 5; mkE 9 2 [] 0 6]; mkSeg 1 0 0 0 0 0 1 "S" [mkE 3 3 [] 0 5];
               mkSeg 2 0 0 0 0 0 1 "X" [mkE 7 1 [] 0 8; mkE 6 4 [] 0 5]] 9 false []) (empty_segs "I" 1 true false).
Example C19_ex : verify wreck = false /\
  exists l', repair "A" "B" 500 (fun i => negb (Nat.eqb i 1)) (fun _ => []) [] [] (fun _ => []) 0 wreck = Done l' /\
    stored_in l' = [mkE 9 2 [] 0 6; mkE 7 1 [] 0 8; mkE 6 4 [] 0 5] /\ verify l' = true /\ verify_elements l' = true.
Proof. split; [vm_compute; reflexivity|]. eexists. vms. Qed.
Example C19_ex_hyp : (l_merge wreck < l_split wreck)%nat /\ build_sizes 2 4 0 (length (stored_in wreck)) /\
  (forall x, loadable (fun i => negb (Nat.eqb i 1)) (ss_segs (l_scores wreck)) x -> stored x).
Proof.
  split; [cbn; lia|]. split. { split; [lia|]. change (length (stored_in wreck)) with 5%nat. lia. }
  intros x (i & s & Hs & _ & Hx).
  destruct i as [|[|[|i]]]; cbn in Hs; try (injection Hs as <-);
    try (repeat (destruct Hx as [<-|Hx]; [apply stb_stored; vm_compute; reflexivity|]); destruct Hx).
  destruct i; discriminate.
Qed.

(** The Verify request with repair, on a server that holds a damaged list. *)
Theorem C19_verify_request : forall d v w t id e, dget d id = Some e -> repairable v (n_list e) ->
  exists d' e', handle d v w t (Q_verify id true) = Done (d', A_verified true) /\ dget d' id = Some e' /\
    mended (n_list e) (n_list e') /\ n_set e' = n_set e /\ n_meta e' = n_meta e /\
    (forall k, k <> id -> dget d' k = dget d k).
Proof. exact c19_verify_request. Qed.
Print Assumptions C19_verify_request.
(** The same for one list of the cross-list request; without [elements] it only looks at
    the segments. *)
Theorem C19_multi_verify : forall v e elems, repairable v (n_list e) ->
  exists l', m_verify v true elems e = Done (l', M_ok []) /\ verify l' = true /\ (elems = true -> mended (n_list e) l').
Proof. exact c19_m_verify. Qed.
Print Assumptions C19_multi_verify.

(** [wreck], read whole *)
Definition v19 : env := Env 0 500 "A" "B" [] [] [] [] (fun _ => []) (fun _ => []) 0.
Example C19_request_hyp : repairable v19 wreck.
Proof.
  split; [cbn; lia|]. split. { change (build_sizes 2 4 0 5). split; lia. }
  split; [|split; [split; vm_compute; reflexivity|split; [discriminate|split; [discriminate|vm_compute; reflexivity]]]].
  intros x Hx. cbn in Hx. repeat (destruct Hx as [<-|Hx]; [apply stb_stored; vm_compute; reflexivity|]). destruct Hx.
Qed.
Example C19_request_ex : exists d', handle [((lit "a"), Entry [] None false wreck)] v19 (fun _ => v19) NoToken (Q_verify (lit "a") true) = Done (d', A_verified true) /\
  option_map (fun e => stored_in (n_list e)) (dget d' (lit "a")) = Some [mkE 9 2 [] 0 6; mkE 7 1 [] 0 8; mkE 6 4 [] 0 5; mkE 3 3 [] 0 5].
Proof. eexists. split; vm_compute; reflexivity. Qed.
