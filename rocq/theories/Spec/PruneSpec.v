(** What the pruner may and must do. *)
From Coq Require Import Strings.String.
From Verif.Lib Require Import Prelude ListAux.
From Verif.Model Require Import Prune.
Open Scope nat_scope.

(** what is known of a list *)
Definition state_of (s : pcfg) (id : string) : option (bool * bool) :=
  match find (fun x => if string_dec (pl_id x) id then true else false) (p_lists s) with Some a => Some (pl_keep a, pl_mem a) | None => None end.
(** steps of the pruner *)
Definition by_pruner (x : pchoice) : bool := match x with K_take | K_visit _ _ | K_done | K_end => true | _ => false end.
(** a step of others that changes what is known of [id] *)
Definition about (id : string) (x : pchoice) : Prop := match x with K_add k _ _ | K_del k | K_load k => k = id | _ => False end.
Definition tally (f : pchoice -> bool) (l : list pchoice) : nat := length (filter f l).
Definition visit_of (id : string) (x : pchoice) : bool := match x with K_visit k _ => if string_dec k id then true else false | _ => false end.
Definition is_take (x : pchoice) : bool := match x with K_take => true | _ => false end.
Definition is_done (x : pchoice) : bool := match x with K_done => true | _ => false end.
Definition is_tick (x : pchoice) : bool := match x with K_tick => true | _ => false end.
Definition is_end (x : pchoice) : bool := match x with K_end => true | _ => false end.
(** what happens within one round *)
Definition within (x : pchoice) : Prop := is_take x = false /\ is_done x = false.
