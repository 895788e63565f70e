(** Model of the response building in /repo/api/morph/elements.go, api/lists.go and
    api/elements.go.  Request parsing and HTTP are not modelled. *)
From Coq Require Import Strings.String ZArith.
From Verif.Lib Require Import Prelude ListAux.
From Verif.Model Require Import Element Elements Segment List.
Open Scope N_scope.

(** api/app RankdbElement: an element with the two ranks shown to the client (the list
    ID is that of the request; UpdatedAt renders e_upd) *)
Record shown := mkSh { sh_elem : element; sh_top : Z; sh_bottom : Z }.

(** morph/elements.go:30-46 [RankedElement.Default] *)
Definition show (re : ranked_element) : shown := mkSh (re_elem re) (re_top re) (re_bottom re).

(** morph/elements.go:162-180 [Elements.ToRanked] *)
Fixpoint to_ranked (top bottom : Z) (l : elements) : list shown :=
  match l with
  | [] => []
  | e :: r => mkSh e top bottom :: to_ranked (top + 1) (bottom - 1) r
  end.

(** morph/elements.go:48-75 [RankedElement.Full], also FullUpdate 105-132: the
    neighbours (above, below) *)
Definition full (re : ranked_element) : list shown * list shown :=
  (to_ranked (re_top re - Z.of_nat (length (re_above re))) (re_bottom re + Z.of_nat (length (re_above re))) (re_above re),
   to_ranked (re_top re + 1) (re_bottom re - 1) (re_below re)).

(** api/lists.go:158-205 [GetRange]; None = not found, also when nothing is returned *)
Definition answer (l : list shown) : option (list shown) := match l with [] => None | _ => Some l end.
Definition range_top (l : lst) (off n : nat) : option (list shown) :=
  match get_rank_top l off n with
  | None => None
  | Some es => answer (to_ranked (Z.of_nat off) (Z.of_nat (len l) - Z.of_nat off - 1) es)
  end.
Definition range_bottom (l : lst) (off n : nat) : option (list shown) :=
  match get_rank_bottom l off n with
  | None => None
  | Some es => answer (to_ranked (Z.of_nat (len l) - Z.of_nat off - 1) (Z.of_nat off) es)
  end.

(** rankedelement.go:93-97 [RankedElements.Sort] *)
Definition sort_ranked (l : list ranked_element) : list ranked_element :=
  sort_by (fun a b => above (re_elem a) (re_elem b)) l.

(** api/elements.go:178-217 [GetMulti] from line 190 on: found and not found.  [sc] are
    the orders in which goroutines finish. *)
Definition get_multi (sc1 sc2 : list nat) (l : lst) (ids : list N) : list shown * list N :=
  let ids := dedup_ids ids in
  match ids with
  | [] => ([], [])
  | _ =>
    let re := get_elements sc1 sc2 l ids 0 in
    let nf := if Nat.eqb (length re) (length ids) then []
              else sort_by N.ltb (not_in ids (map (fun x => e_id (re_elem x)) re)) in
    (map show (sort_ranked re), nf)
  end.

(** api/elements.go:220-276 [GetAround] from line 236 on: the element, above, below,
    local_from_top, local_from_bottom; None = not found *)
Definition around := (shown * list shown * list shown * nat * nat)%type.
Fixpoint find_pos (id : N) (l : list ranked_element) : option nat :=
  match l with
  | [] => None
  | x :: r => if e_id (re_elem x) =? id then Some 0%nat else option_map S (find_pos id r)
  end.
Definition get_around (sc1 sc2 : list nat) (l : lst) (id : N) (ids : list N) (range : nat) : option around :=
  let re := sort_ranked (get_elements sc1 sc2 l (dedup_ids (ids ++ [id])) 0) in
  match find_pos id re with
  | None => None
  | Some f =>
    match nth_error re f with
    | None => None
    | Some c =>
      let below := skipn (S f) re in
      let below := if Nat.ltb range (length below) then firstn range below else below in
      let ab := firstn f re in
      let ab := if Nat.ltb range (length ab) then skipn (length ab - range) ab else ab in
      Some (show c, map show ab, map show below, f, (length re - f - 1)%nat)
    end
  end.
