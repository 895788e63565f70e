(** C51: responses about several elements. *)
From Coq Require Import Strings.String ZArith.
From Verif.Lib Require Import Prelude ListAux.
From Verif.Model Require Import Element Elements Segment List Api.
From Verif.Spec Require Import RankSpec QuerySpec HistorySpec AnswerSpec ShownSpec.
From Verif.Proof Require Import ListThm ApiP.
From Verif.Thm Require Import Sample.
Open Scope N_scope.

(** Found: the requested elements of the ranking, in rank order, with true ranks.
    Not found: the requested IDs that are not in the list, each once, ascending. *)
Theorem C51_multi : forall merge split l m r sc1 sc2 ids found missing,
  reachable merge split l m -> ranking_of (sin m) r ->
  Forall (fun v => v <= max_u64) ids -> get_multi sc1 sc2 l ids = (found, missing) ->
  map sh_elem found = filter (fun e => existsb (N.eqb (e_id e)) ids) r /\ Forall (truly_shown r) found /\
  StronglySorted N.lt missing /\ forall v, In v missing <-> In v ids /\ forall e, In e r -> e_id e <> v.
Proof. exact c51_multi. Qed.
Print Assumptions C51_multi.

(** The neighbourhood of an element among a chosen set of elements. *)
Theorem C51_around : forall merge split l m r sc1 sc2 id ids range,
  reachable merge split l m -> ranking_of (sin m) r -> Forall (fun v => v <= max_u64) (id :: ids) ->
  let chosen := filter (fun e => existsb (N.eqb (e_id e)) (id :: ids)) r in
  match get_around sc1 sc2 l id ids range with
  | None => forall e, In e r -> e_id e <> id
  | Some (c, ab, be, lt, lb) =>
      exists a x b, chosen = a ++ x :: b /\ e_id x = id /\ sh_elem c = x /\
        map sh_elem ab = skipn (length a - range) a /\ map sh_elem be = firstn range b /\ lt = length a /\ lb = length b /\
        Forall (truly_shown r) (c :: ab ++ be)
  end.
Proof. exact c51_around. Qed.
Print Assumptions C51_around.

Definition view (l : list shown) := map (fun s => (Z.of_N (e_id (sh_elem s)), sh_top s, sh_bottom s)) l.
Example C51_ex1 : reachable 2 4 l1 m1 /\
  (let '(f, m) := get_multi [] [1%nat] l1 [8; 99; 2; 8; 77; 5] in (view f, m)) = ([(2, 0, 11); (5, 4, 7); (8, 8, 3)]%Z, [77; 99]).
Proof. split; [exact l1_reach|]. vm_compute. auto. Qed.
Example C51_ex2 : option_map (fun '(c, a, b, t, u) => (view [c], view a, view b, t, u)) (get_around [] [1%nat] l1 6 [2; 3; 12; 1; 99; 9; 8] 2)
  = Some ([(6, 6, 5)], [(3, 1, 10); (12, 3, 8)], [(8, 8, 3); (9, 9, 2)], 3%nat, 3%nat)%Z.
Proof. vm_compute. reflexivity. Qed.
Example C51_ex3 : get_around [] [] l1 99 [2; 3] 2 = None.
Proof. vm_compute. reflexivity. Qed.
