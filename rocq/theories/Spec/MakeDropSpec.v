(** A collection of lists, one request after the other.  A list is a number (every list that is
    made has another one) and a history. *)
From Coq Require Import Strings.String.
From Verif.Lib Require Import Prelude ListAux.
From Verif.Model Require Import MakeDrop.
Open Scope nat_scope.

(** effects of requests *)
Inductive eff :=
| E_has (id : string) (b : bool)
| E_put (id : string) (o x : nat)                     (* a new list, number [o] *)
| E_gone (id : string)
| E_call (id : string) (x o : nat) (h : list nat).    (* a call on list [o], which has the history [h] *)
Definition target (e : eff) : string := match e with E_has id _ | E_put id _ _ | E_gone id | E_call id _ _ _ => id end.
Definition state := option (nat * list nat).
Definition after_eff (id : string) (s : state) (e : eff) : state :=
  if string_dec (target e) id then
    match e with
    | E_has _ _ => s
    | E_put _ o x => Some (o, [x])
    | E_gone _ => None
    | E_call _ x o h => match s with Some (o, h) => Some (o, h ++ [x]) | None => None end
    end
  else s.
(** the list with this ID after the effects [h], each with the number of its request *)
Definition at_id (id : string) (h : list (nat * eff)) : state := fold_left (fun s e => after_eff id s (snd e)) h None.
Definition fits (e : eff) (s : state) : Prop :=
  match e with
  | E_has _ b => b = match s with Some _ => true | None => false end
  | E_put _ _ _ | E_gone _ => True
  | E_call _ _ o h => s = Some (o, h)
  end.
(** every effect fits what the effects before it have left *)
Definition legal (h : list (nat * eff)) : Prop := forall h1 x h2, h = h1 ++ x :: h2 -> fits (snd x) (at_id (target (snd x)) h1).
Definition effects (i : nat) (h : list (nat * eff)) : list eff := map snd (filter (fun x => fst x =? i) h).

(** what a request does and answers *)
Inductive does : request -> ans -> list eff -> Prop :=
| Do_create id rep x b o : (b = true -> rep = true) -> does (RCreate id rep x) AOk [E_has id b; E_put id o x]
| Do_conflict id x : does (RCreate id false x) AConflict [E_has id true]
| Do_create_failed id rep x b : (b = true -> rep = true) -> does (RCreate id rep x) AFailed [E_has id b]
| Do_skip id x : does (RRestore id false x) ASkipped [E_has id true]
| Do_restore id rep x o : does (RRestore id rep x) AOk [E_has id false; E_put id o x]
| Do_restore_none id x o : does (RRestore id true x) AOk [E_has id true; E_has id false; E_put id o x]
| Do_restore_over id x o : does (RRestore id true x) AOk [E_has id true; E_has id true; E_gone id; E_put id o x]
| Do_restore_failed id rep x : does (RRestore id rep x) AFailed [E_has id false]
| Do_restore_none_failed id x : does (RRestore id true x) AFailed [E_has id true; E_has id false]
| Do_restore_over_failed id x : does (RRestore id true x) AFailed [E_has id true; E_has id true; E_gone id]
| Do_delete id : does (RDelete id) AOk [E_has id true; E_gone id]
| Do_delete_none id : does (RDelete id) AOk [E_has id false]
| Do_call id x o h : does (RCall id x) (AGot o h) [E_has id true; E_call id x o h]
| Do_call_failed id x : does (RCall id x) AFailed [E_has id true]
| Do_call_none id x : does (RCall id x) ANotFound [E_has id false].

(** request [i] was answered before request [j] came *)
Definition before (tr : list label) (i j : nat) : Prop := exists t1 t2, tr = t1 ++ t2 /\ In (Answered i) t1 /\ In (Came j) t2.
(** no effect of [j] comes before an effect of [i] *)
Definition in_order (h : list (nat * eff)) (i j : nat) : Prop := forall a b, h = a ++ b -> In j (map fst a) -> In i (map fst b) -> False.
Definition any_go (c : dcfg) (x : dchoice) : Prop := True.
Definition ended (c : dcfg) : Prop := forall i r p, nth_error (d_reqs c) i = Some (r, p) -> exists a, p = PEnd a.
(** the list that a lookup of this ID finds *)
Definition found (c : dcfg) (id : string) : state :=
  match d_map c id with Some o => match nth_error (d_objs c) o with Some b => Some (o, o_hist b) | None => None end | None => None end.
Definition maker (r : request) : option string := match r with RCreate id _ _ | RRestore id _ _ | RDelete id => Some id | RCall _ _ => None end.
Definition busy (c : dcfg) (id : string) : Prop := exists i r p, nth_error (d_reqs c) i = Some (r, p) /\ maker r = Some id /\ forall a, p <> PEnd a.
(** no two requests at a time that make or delete lists with one ID; the store does not fail *)
Definition apart (c : dcfg) (x : dchoice) : Prop :=
  match x with D_come r => forall id, maker r = Some id -> ~ busy c id | D_go _ ok => ok = true end.
Fixpoint dplay (c : dcfg) (l : list dchoice) : option (list label * dcfg) :=
  match l with
  | [] => Some ([], c)
  | x :: l => match dstep c x with
              | Some (ls, c) => match dplay c l with Some (tr, c) => Some (ls ++ tr, c) | None => None end
              | None => None
              end
  end.
