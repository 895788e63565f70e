(** C57: the payload after an update. *)
From Coq Require Import Strings.String Strings.Ascii Strings.Byte ZArith.
From Verif.Lib Require Import Prelude ListAux Bytes.
From Verif.Model Require Import Element Elements Segment List Access Api Server.
From Verif.Spec Require Import RankSpec QuerySpec HistorySpec AccessSpec ServerSpec.
From Verif.Proof Require Import ServerReq.
From Verif.Thm Require Import SampleServer.
Open Scope N_scope.

(** The payload of an accepted Put is stored as sent, whatever it is and whatever was there. *)
Theorem C57_payload : forall evs d rs v w v' w' id eid a radius e, Forall event_ok evs -> N.of_nat (all_carried evs + 1) < max_u32 ->
  srun [] evs = Done (d, rs) -> dget d id = Some e -> env_ok v -> (forall k, env_ok (w k)) -> env_ok v' -> (forall k, env_ok (w' k)) -> elem_sent a ->
  denotes eid (in_id a) ->
  exists d' r1 c ab be, srun d [E_request v w NoToken (Q_put id eid a radius); E_request v' w' NoToken (Q_get id eid radius)] =
      Done (d', [Some r1; Some (A_elem c ab be None)]) /\ e_payload (sh_elem c) = in_payload a.
Proof. exact c57_payload. Qed.
Print Assumptions C57_payload.

(** "On updates null means do not update" (design/elements.go:228): a Put without payload, or with
    the payload null, on an element that has one removes it. *)
Definition null : list byte := [x6e; x75; x6c; x6c].
Definition before57 : list event :=
  [ req (Q_create_list (str "l") (str "s") None 10 20 true false []); req (Q_put (str "l") (str "7") (ae 7 1 None [x7b; x7d]) 0) ].
Theorem C57_null_refuted : forall p, p = [] \/ p = null ->
  exists d rs c ab be, srun [] (before57 ++ [req (Q_put (str "l") (str "7") (ae 7 2 None p) 0); req (Q_get (str "l") (str "7") 0)]) =
      Done (d, rs ++ [Some (A_elem c ab be None)]) /\
    (exists c0 ab0 be0 prev, nth_error rs 1 = Some (Some (A_elem c0 ab0 be0 prev)) /\ e_payload (sh_elem c0) = [x7b; x7d]) /\
    e_payload (sh_elem c) <> [x7b; x7d].
Proof.
  intros p [->| ->]; eexists _, [_; _; _], _, _, _; (split; [vm_compute; reflexivity|]); split;
    try (do 4 eexists; split; reflexivity); discriminate.
Qed.
Print Assumptions C57_null_refuted.
