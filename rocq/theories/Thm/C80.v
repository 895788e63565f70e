(** C80: lists made, replaced, restored and deleted while they are used. *)
From Coq Require Import Strings.String.
From Verif.Lib Require Import Prelude ListAux.
From Verif.Model Require Import MakeDrop.
From Verif.Spec Require Import MakeDropSpec.
From Verif.Proof Require Import MakeDropP MakeDropWhole.
Open Scope nat_scope.

(** In every execution there is one order of effects that explains every answer and what is found
    in the end, and that agrees with which request was answered before another came. *)
Theorem C80_order : forall tr c, dexec any_go tr c -> exists h, legal h /\ (forall id, at_id id h = found c id) /\
  (forall i r a, nth_error (d_reqs c) i = Some (r, PEnd a) -> does r a (effects i h)) /\ (forall i j, before tr i j -> in_order h i j).
Proof. exact (one_order any_go). Qed.
Print Assumptions C80_order.
(** A list that can be found has its data, unless a create is about to put another in its place. *)
Theorem C80_whole : forall tr c id o b, dexec any_go tr c -> d_map c id = Some o -> nth_error (d_objs c) o = Some b ->
  o_data b = true \/ exists i rep x new, nth_error (d_reqs c) i = Some (RCreate id rep x, PAdd new).
Proof. exact (found_whole any_go). Qed.
Print Assumptions C80_whole.
Theorem C80_rest : forall tr c id o b, dexec any_go tr c -> ended c -> d_map c id = Some o -> nth_error (d_objs c) o = Some b -> o_data b = true.
Proof.
  intros tr c id o b D E Em Eb. destruct (C80_whole tr c id o b D Em Eb) as [H|(i & rep & x & new & Hi)]; [exact H|]. destruct (E _ _ _ Hi) as (a & X). discriminate X.
Qed.
Print Assumptions C80_rest.
(** If requests that make or delete lists with one ID do not overlap, and the store does not fail,
    no data is left behind and no list is lost to another. *)
Theorem C80_no_waste : forall tr c o b, dexec apart tr c -> nth_error (d_objs c) o = Some b -> o_data b = true -> d_map c (o_id b) = Some o \/ busy c (o_id b).
Proof. exact no_waste. Qed.
Print Assumptions C80_no_waste.
Theorem C80_no_clobber : forall tr c i r new id o, dexec apart tr c -> nth_error (d_reqs c) i = Some (r, PAdd new) -> maker r = Some id -> d_map c id = Some o ->
  (exists x, r = RCreate id true x) /\ exists b, nth_error (d_objs c) o = Some b /\ o_data b = false.
Proof. exact no_clobber. Qed.
Print Assumptions C80_no_clobber.

(** ** Runs *)
Definition go1 (i : nat) : dchoice := D_go i true.
Definition mk (i n : nat) (r : request) : list dchoice := D_come r :: repeat (go1 i) n.
Definition seen80 (x : list label * dcfg) : list (string * list nat * bool) * option nat * list place :=
  let c := snd x in (map (fun b => (o_id b, o_hist b, o_data b)) (d_objs c), d_map c "a"%string, map snd (d_reqs c)).
Definition out80 (l : list dchoice) : dcfg := match dplay dstart l with Some (_, c) => c | None => dstart end.
Lemma out80_exec l : (match dplay dstart l with Some _ => true | None => false end) = true -> exists tr, dexec any_go tr (out80 l).
Proof.
  unfold out80. destruct (dplay dstart l) as [[tr c]|] eqn:E; [|discriminate]. intros _. exists tr. apply (dplay_exec any_go l [] dstart tr c (Dx_nil _) (fun _ _ => Logic.I) E).
Qed.
Lemma out80_apart l : (match dplay dstart l with Some _ => true | None => false end) = true -> dplay_apart dstart l = true -> exists tr, dexec apart tr (out80 l).
Proof.
  unfold out80. destruct (dplay dstart l) as [[tr c]|] eqn:E; [|discriminate]. intros _ A. exists tr. apply (dplay_apart_exec l [] dstart tr c (Dx_nil _) A E).
Qed.
(** A call has list 0; the list is taken out; a later call is told that there is none; then the
    first call is carried out on list 0.  In the order it comes before the deletion. *)
Definition late : list dchoice := mk 0 3 (RCreate "a" false 7) ++ mk 1 1 (RCall "a" 8) ++ mk 2 2 (RDelete "a") ++ mk 3 1 (RCall "a" 9) ++ [go1 1; go1 2].
Example ex_late : option_map seen80 (dplay dstart late) =
  Some ([("a", [7; 8], false)], None, [PEnd AOk; PEnd (AGot 0 [7]); PEnd AOk; PEnd ANotFound])%string.
Proof. vm_compute. reflexivity. Qed.
Example ex_late_order : exists tr h, dexec any_go tr (out80 late) /\ legal h /\ (forall id, at_id id h = found (out80 late) id) /\ effects 1 h = [E_has "a" true; E_call "a" 8 0 [7]]%string /\
  effects 3 h = [E_has "a" false]%string.
Proof.
  destruct (out80_exec late) as (tr & D); [vm_compute; reflexivity|]. destruct (C80_order tr _ D) as (h & A & B & C & _). exists tr, h. repeat split; auto.
  - specialize (C 1 (RCall "a" 8) (AGot 0 [7]) eq_refl). inversion C; reflexivity.
  - specialize (C 3 (RCall "a" 9) ANotFound eq_refl). inversion C; reflexivity.
Qed.
(** makers of one ID one after the other, calls between: the case of the last two theorems *)
Definition tidy : list dchoice := mk 0 3 (RCreate "a" false 1) ++ mk 1 2 (RCall "a" 2) ++ mk 2 4 (RCreate "a" true 3) ++ mk 3 2 (RCall "a" 4) ++ mk 4 6 (RRestore "a" true 5) ++ mk 5 1 (RCreate "a" false 6).
Example ex_tidy : option_map seen80 (dplay dstart tidy) =
  Some ([("a", [1; 2], false); ("a", [3; 4], false); ("a", [5], true)], Some 2,
        [PEnd AOk; PEnd (AGot 0 [1]); PEnd AOk; PEnd (AGot 1 [3]); PEnd AOk; PEnd AConflict])%string /\ dplay_apart dstart tidy = true.
Proof. vm_compute. auto. Qed.
Example ex_tidy_waste : exists tr, dexec apart tr (out80 tidy) /\ ended (out80 tidy).
Proof. destruct (out80_apart tidy) as (tr & D); [vm_compute; reflexivity|vm_compute; reflexivity|]. exists tr. split; [exact D|]. apply endedb_ok. vm_compute. reflexivity. Qed.
Definition halfway : list dchoice := mk 0 3 (RCreate "a" false 1) ++ mk 1 3 (RCreate "a" true 3).
Example ex_clobber : exists tr, dexec apart tr (out80 halfway) /\ nth_error (d_reqs (out80 halfway)) 1 = Some (RCreate "a" true 3, PAdd 1)%string /\ d_map (out80 halfway) "a"%string = Some 0 /\
  option_map o_data (nth_error (d_objs (out80 halfway)) 0) = Some false.
Proof. destruct (out80_apart halfway) as (tr & D); [vm_compute; reflexivity|vm_compute; reflexivity|]. exists tr. split; [exact D|]. vm_compute. auto. Qed.

(** Refuted: that of two creates that do not replace at most one is answered OK; that an answered
    create can be found; that data is deleted with its list.  The store does not fail. *)
Definition race : list dchoice := mk 0 2 (RCreate "a" false 1) ++ mk 1 3 (RCreate "a" false 2) ++ [go1 0].
Theorem C80_both_refuted : exists tr c id x y b, dexec any_go tr c /\ ended c /\ x <> y /\ d_reqs c = [(RCreate id false x, PEnd AOk); (RCreate id false y, PEnd AOk)] /\
  found c id = Some (0, [x]) /\ nth_error (d_objs c) 1 = Some b /\ o_hist b = [y] /\ o_data b = true.
Proof.
  destruct (out80_exec race) as (tr & D); [vm_compute; reflexivity|]. exists tr, (out80 race), "a"%string, 1, 2, (mkO "a" [2] true true).
  split; [exact D|]. split; [apply endedb_ok; vm_compute; reflexivity|]. split; [discriminate|]. vm_compute. auto 10.
Qed.
Print Assumptions C80_both_refuted.
(** Refuted: that a deletion deletes the data of the list it removes. *)
Definition wrong_one : list dchoice := mk 0 3 (RCreate "a" false 1) ++ mk 1 1 (RDelete "a") ++ mk 2 4 (RCreate "a" true 2) ++ [go1 1; go1 1].
Theorem C80_delete_refuted : exists tr c id b, dexec any_go tr c /\ ended c /\ nth_error (d_reqs c) 1 = Some (RDelete id, PEnd AOk) /\ (forall i, d_map c i = None) /\
  nth_error (d_objs c) 1 = Some b /\ o_id b = id /\ o_data b = true.
Proof.
  destruct (out80_exec wrong_one) as (tr & D); [vm_compute; reflexivity|]. exists tr, (out80 wrong_one), "a"%string, (mkO "a" [2] true true).
  split; [exact D|]. split; [apply endedb_ok; vm_compute; reflexivity|]. split; [reflexivity|]. split; [|vm_compute; auto].
  intros i. change (d_map (out80 wrong_one)) with (set_map (set_map (set_map (fun _ => None) "a" (Some 0)) "a" (Some 1)) "a" None). unfold set_map. destruct (string_dec i "a"); reflexivity.
Qed.
Print Assumptions C80_delete_refuted.
(** Refuted: that a list can be used while it is replaced.  With Create the call fails although the
    ID can be found all the time; with a restore the answer is that there is no such list. *)
Definition gap (r : request) (n : nat) : list dchoice := mk 0 3 (RCreate "a" false 1) ++ mk 1 n r ++ mk 2 2 (RCall "a" 9).
Definition gap2 (r : request) (n : nat) : list dchoice := mk 0 3 (RCreate "a" false 1) ++ mk 1 n r ++ mk 2 1 (RCall "a" 9).
Theorem C80_gap_refuted : exists tr1 c1 tr2 c2, dexec apart tr1 c1 /\ dexec apart tr2 c2 /\
  nth_error (d_reqs c1) 1 = Some (RCreate "a" true 2, PAdd 1)%string /\ nth_error (d_reqs c1) 2 = Some (RCall "a" 9, PEnd AFailed)%string /\
  nth_error (d_reqs c2) 1 = Some (RRestore "a" true 2, PErase 0)%string /\ nth_error (d_reqs c2) 2 = Some (RCall "a" 9, PEnd ANotFound)%string.
Proof.
  destruct (out80_apart (gap (RCreate "a" true 2) 3)) as (tr1 & D1); [vm_compute; reflexivity|vm_compute; reflexivity|].
  destruct (out80_apart (gap2 (RRestore "a" true 2) 3)) as (tr2 & D2); [vm_compute; reflexivity|vm_compute; reflexivity|].
  do 4 eexists. split; [exact D1|]. split; [exact D2|]. vm_compute. auto.
Qed.
Print Assumptions C80_gap_refuted.
