(** C04: merging and editing slices. *)
From Verif.Lib Require Import Prelude ListAux ListLemmas SortLemmas Perm.
From Verif.Model Require Import Element Elements.
From Verif.Spec Require Import RankSpec.
From Verif.Proof Require Import ElementP ElementsP ElementsThm.
Open Scope N_scope.

Theorem C04_merge : forall copying l ins, ranked l -> ranked ins ->
  exists r, merge_elems copying l ins = Some r /\ weakly_ranked r /\ Permutation r (l ++ ins) /\
    merge_elems (negb copying) l ins = Some r /\
    (distinct_ids (l ++ ins) -> ranked r).
Proof. exact c04_merge. Qed.
Print Assumptions C04_merge.

Theorem C04_insert : forall e l l' i, weakly_ranked l -> insert_elem e l = (l', i) ->
  weakly_ranked l' /\ Permutation l' (e :: l) /\ nth_error l' i = Some e /\
  i = length (filter (fun x => above x e) l).
Proof. exact c04_insert. Qed.
Print Assumptions C04_insert.

Theorem C04_delete : forall id l, distinct_ids l ->
  (~ In id (map e_id l) -> delete_elem id l = NotFound) /\
  (In id (map e_id l) -> exists l', delete_elem id l = Ok l' /\
     l' = filter (fun e => negb (e_id e =? id)) l /\ (ranked l -> ranked l')).
Proof. exact c04_delete. Qed.
Print Assumptions C04_delete.

Theorem C04_update : forall now e l, ranked l -> distinct_ids l ->
  (~ In (e_id e) (map e_id l) -> update_elem now e l = NotFound) /\
  (In (e_id e) (map e_id l) -> exists l' i,
     update_elem now e l = Ok (l', Some (i, (length l' - i - 1)%nat)) /\
     ranked l' /\ nth_error l' i = Some (with_time now e) /\
     (forall x, In x l' <-> x = with_time now e \/ (In x l /\ e_id x <> e_id e))).
Proof. exact c04_update. Qed.
Print Assumptions C04_update.

Theorem C04_add : forall now e l, now <> 0 -> ranked l -> distinct_ids l ->
  exists l' i, add_elem now e l = Ok (l', Some (i, (length l' - i - 1)%nat)) /\
     ranked l' /\ nth_error l' i = Some (with_time now e) /\
     (forall x, In x l' <-> x = with_time now e \/ (In x l /\ e_id x <> e_id e)).
Proof. exact c04_add. Qed.
Print Assumptions C04_add.

Theorem C04_merge_dedup : forall l ins, distinct_ids l -> distinct_ids ins -> ranked l ->
  ranked (merge_deduplicate l ins) /\ distinct_ids (merge_deduplicate l ins) /\
  (forall e, In e (merge_deduplicate l ins) <->
     In e ins \/ (In e l /\ ~ In (e_id e) (map e_id ins))).
Proof. exact c04_merge_dedup. Qed.
Print Assumptions C04_merge_dedup.

Definition ex_l := [mkE 9 4 [] 0 1; mkE 5 2 [] 0 1; mkE 5 3 [] 0 1].
Definition ex_i := [mkE 9 7 [] 0 1; mkE 6 8 [] 0 1; mkE 1 1 [] 0 1].
Example C04_ex_ranked : ranked ex_l /\ ranked ex_i /\ distinct_ids (ex_l ++ ex_i).
Proof. split; [|split]; repeat constructor; unfold Above; cbn; lia. Qed.
Example C04_ex_inplace : merge_elems false ex_l ex_i =
  Some [mkE 9 4 [] 0 1; mkE 9 7 [] 0 1; mkE 6 8 [] 0 1; mkE 5 2 [] 0 1; mkE 5 3 [] 0 1; mkE 1 1 [] 0 1].
Proof. reflexivity. Qed.
Example C04_ex_update : update_elem 77 (mkE 8 2 [] 0 0) ex_l =
  Ok ([mkE 9 4 [] 0 1; mkE 8 2 [] 0 77; mkE 5 3 [] 0 1], Some (1, 1)%nat).
Proof. reflexivity. Qed.
