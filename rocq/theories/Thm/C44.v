(** C44: ranks in API responses. *)
From Coq Require Import Strings.String ZArith.
From Verif.Lib Require Import Prelude ListAux.
From Verif.Model Require Import Element Elements Segment List Api.
From Verif.Spec Require Import RankSpec QuerySpec HistorySpec AnswerSpec ShownSpec.
From Verif.Proof Require Import ListThm ApiP.
From Verif.Thm Require Import Sample.
Open Scope N_scope.

(** Range responses, from either end, show true ranks. *)
Theorem C44_range_top : forall merge split l m r off n res,
  reachable merge split l m -> ranking_of (sin m) r -> range_top l off n = Some res ->
  map sh_elem res = firstn n (skipn off r) /\ forall k s, nth_error res k = Some s -> shown_at r (off + k) s.
Proof. exact c44_range_top. Qed.
Print Assumptions C44_range_top.

Theorem C44_range_bottom : forall merge split l m r off n res,
  reachable merge split l m -> ranking_of (sin m) r -> range_bottom l off n = Some res ->
  (off < length r)%nat /\ map sh_elem res = firstn n (skipn (length r - 1 - off) r) /\
  forall k s, nth_error res k = Some s -> shown_at r (length r - 1 - off + k) s.
Proof. exact c44_range_bottom. Qed.
Print Assumptions C44_range_bottom.

Theorem C44_range_not_found : forall merge split l m r off n,
  reachable merge split l m -> ranking_of (sin m) r ->
  (range_top l off n = None <-> (length r <= off \/ n = 0)%nat) /\ (range_bottom l off n = None <-> (length r <= off \/ n = 0)%nat).
Proof. exact c44_range_none. Qed.
Print Assumptions C44_range_not_found.

(** In the full response neighbours below show true ranks; of [c] neighbours above only
    the middle one of an odd number does (the k-th, counting from 0, with c = 2k+1). *)
Theorem C44_neighbours : forall merge split l m r sc1 sc2 ids radius re,
  reachable merge split l m -> ranking_of (sin m) r ->
  Forall (fun v => v <= max_u64) ids -> In re (get_elements sc1 sc2 l ids radius) ->
  Forall (truly_shown r) (snd (full re)) /\
  (forall k s, nth_error (fst (full re)) k = Some s -> (truly_shown r s <-> length (fst (full re)) = (2 * k + 1)%nat)).
Proof. exact c44_neighbours. Qed.
Print Assumptions C44_neighbours.

Theorem C44_above_refuted : exists merge split l m r re s,
  reachable merge split l m /\ ranking_of (sin m) r /\ In re (get_elements [] [] l [7] 2) /\
  In s (fst (full re)) /\ ~ truly_shown r s.
Proof.
  pose (re := hd (mkRE (mkE 0 0 [] 0 0) 0 0 [] [] None) (get_elements [] [] l1 [7] 2)).
  pose (s := hd (mkSh (mkE 0 0 [] 0 0) 0 0) (fst (full re))).
  exists 2%nat, 4%nat, l1, m1, (stored_in l1), re, s.
  assert (R : In re (get_elements [] [] l1 [7] 2)) by (vm_compute; left; reflexivity).
  split; [exact l1_reach|]. split; [exact (reach_ranking _ _ _ _ l1_reach)|]. split; [exact R|].
  split; [vm_compute; left; reflexivity|]. intros T.
  assert (B : Forall (fun v => v <= max_u64) [7]) by (constructor; [discriminate|constructor]).
  apply (proj2 (C44_neighbours _ _ _ _ _ [] [] [7] 2 re l1_reach (reach_ranking _ _ _ _ l1_reach) B R) 0%nat s) in T; [|vm_compute; reflexivity].
  vm_compute in T. discriminate.
Qed.
Print Assumptions C44_above_refuted.

Definition view (l : list shown) := map (fun s => (Z.of_N (e_id (sh_elem s)), sh_top s, sh_bottom s)) l.
Example C44_ex1 : reachable 2 4 l1 m1 /\ map e_id (stored_in l1) = [2; 3; 11; 12; 5; 4; 6; 7; 8; 9; 10; 1] /\
  option_map view (range_top l1 2 3) = Some [(11, 2, 9); (12, 3, 8); (5, 4, 7)]%Z /\
  option_map view (range_bottom l1 4 3) = Some [(7, 7, 4); (8, 8, 3); (9, 9, 2)]%Z.
Proof. split; [exact l1_reach|]. vm_compute. auto. Qed.
(** 6 and 4 are the elements just above 7, at positions 6 and 5 *)
Example C44_ex2 : map (fun re => (view (fst (full re)), view (snd (full re)))) (get_elements [] [] l1 [7] 2)
  = [([(6, 5, 6); (4, 6, 5)], [(8, 8, 3); (9, 9, 2)])]%Z.
Proof. vm_compute. reflexivity. Qed.
