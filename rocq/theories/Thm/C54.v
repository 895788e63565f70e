(** C54: the HTTP API is a map from list IDs to maps from element IDs to elements. *)
From Coq Require Import Strings.String Strings.Ascii Strings.Byte ZArith.
From Verif.Lib Require Import Prelude ListAux Bytes.
From Verif.Model Require Import Element Elements Segment List Access Api Server.
From Verif.Spec Require Import RankSpec QuerySpec HistorySpec AnswerSpec AccessSpec ServerSpec.
From Verif.Proof Require Import ServerReq.
From Verif.Thm Require Import SampleServer.
Open Scope N_scope.

(** Any sequence of requests, split passes and reloads, starting with no lists: every answer is
    the one the map of maps gives ([meaning] in Spec/ServerSpec.v) and the lists stored in the
    end are the maps.  Only a split pass can fail, by running out of 32 bit segment numbers. *)
Theorem C54_refines : forall evs, Forall event_ok evs -> N.of_nat (all_carried evs) < max_u32 ->
  (Exists is_split evs /\ srun [] evs = Exhausted) \/
  exists d rs s, srun [] evs = Done (d, rs) /\ history sdb_empty evs rs s /\
    forall id, match dget d id, s id with
               | None, None => True
               | Some e, Some sl => n_set e = s_set sl /\ n_meta e = s_meta sl /\ l_merge (n_list e) = s_merge sl /\ l_split (n_list e) = s_split sl /\
                                    ranking_of (sin (s_map sl)) (stored_in (n_list e))
               | _, _ => False
               end.
Proof. exact c54_run. Qed.
Print Assumptions C54_refines.

(** What an accepted Put answers is what Get answers next: the element as sent, the same rank,
    the same neighbours. *)
Theorem C54_read_back : forall evs d rs v w v' w' id eid a radius e, Forall event_ok evs -> N.of_nat (all_carried evs + 1) < max_u32 ->
  srun [] evs = Done (d, rs) -> dget d id = Some e -> env_ok v -> (forall k, env_ok (w k)) -> env_ok v' -> (forall k, env_ok (w' k)) -> elem_sent a ->
  denotes eid (in_id a) ->
  exists d' r1 r2 c1 ab1 be1 prev c2 ab2 be2,
    srun d [E_request v w NoToken (Q_put id eid a radius); E_request v' w' NoToken (Q_get id eid radius)] = Done (d', [Some r1; Some r2]) /\
    r1 = A_elem c1 ab1 be1 prev /\ r2 = A_elem c2 ab2 be2 None /\ c1 = c2 /\ sh_elem c1 = sent (v_now v) a /\
    map sh_elem ab1 = map sh_elem ab2 /\ map sh_elem be1 = map sh_elem be2.
Proof. exact c54_read_back. Qed.
Print Assumptions C54_read_back.

(** The hypotheses hold of [run0]; what it answers, in short. *)
Inductive short := S_code (n : nat) | S_list (n : nat) | S_ids (l : list N) (missing : list N) | S_multi (l : list (bytes * nat)) | S_none.
Definition shorten (o : option resp) : short :=
  match o with
  | None => S_none
  | Some r => match r with
    | Done_empty => S_code 204 | Bad => S_code 400 | Unauthorized => S_code 401 | Missing => S_code 404 | Conflict => S_code 409
    | Failed | Crashed => S_code 500
    | A_list _ _ _ _ _ _ n _ _ => S_list n
    | A_elem c ab be _ => S_ids (map (fun x => e_id (sh_elem x)) (rev ab ++ c :: be)) []
    | A_elems l m => S_ids (map (fun x => e_id (sh_elem x)) l) m
    | A_around (c, ab, be, _, _) => S_ids (map (fun x => e_id (sh_elem x)) (ab ++ c :: be)) []
    | A_range l => S_ids (map (fun x => e_id (sh_elem x)) l) []
    | A_verified b => S_code (if b then 200 else 0)
    | A_multi l => S_multi (map (fun p => (fst p, match snd p with M_ok _ => 200 | M_missing => 404 | M_conflict => 409 | M_invalid => 0 end%nat)) l)
    end
  end.
Example C54_ex : Forall event_ok run0 /\ N.of_nat (all_carried run0) < max_u32 /\
  match srun [] run0 with
  | Done (d, rs) => length d = 2%nat /\ map shorten rs =
      [ S_list 2; S_list 1; S_ids [2; 3; 1] []; S_none; S_none; S_ids [4; 2] [];
        S_multi [(str "dk", 409%nat); (str "nope", 404%nat); (str "se", 200%nat)];
        S_code 204; S_list 3; S_ids [4; 3; 2] []; S_ids [3; 2] []; S_code 400; S_ids [9; 4] [77];
        S_code 401; S_code 204; S_code 404 ]
  | _ => False
  end.
Proof. split; [exact run0_ok|]. split; [reflexivity|]. vm_compute. split; reflexivity. Qed.

(** The percentile request on an empty list is answered by the recovered panic. *)
Definition empty_list : event := req (Q_create_list (str "e") (str "s") None 10 20 true false []).
Theorem C54_no_crash_refuted : exists evs d rs, Forall event_ok evs /\ srun [] evs = Done (d, rs) /\ In (Some Crashed) rs.
Proof.
  exists [empty_list; req (Q_pct (str "e") 1 1 5)]. eexists _, _. split; [|split; [vm_compute; reflexivity|cbn; auto]].
  repeat (apply Forall_cons; [split; [exact v0_ok|split; [intros ?; exact v0_ok|]]|]); [| |constructor].
  - cbn. unfold sizes_sent, elems_sent. repeat split; try lia; destruct H.
  - cbn. right. discriminate.
Qed.
Print Assumptions C54_no_crash_refuted.
