(** What a history of operations on a list means: the effect of every operation on
    a plain map from ID to element, and the callers' obligations.  Nothing here
    looks at segments. *)
From Coq Require Import Strings.String.
From Verif.Lib Require Import Prelude ListAux.
From Verif.Model Require Import Element Elements Segment List.
From Verif.Spec Require Import RankSpec QuerySpec.
Open Scope N_scope.

(** elements without update time get the clock reading *)
Definition stamp (clk : N -> N) (e : element) : element :=
  if e_upd e =? 0 then mkE (e_score e) (e_id e) (e_payload e) (e_tie e) (clk (e_id e)) else e.
(** new lists stamp everything *)
Definition restamp (now : N) (e : element) : element := mkE (e_score e) (e_id e) (e_payload e) (e_tie e) now.

Definition spec_step (m : smap) (o : op) : smap :=
  match o with
  | OUpdate clk _ _ _ e => sputs m (map (stamp clk) e)
  | OInsert _ _ e => sputs m e
  | ODelete _ _ _ ids => sdel m ids
  | OSplit _ _ | OReindex _ _ _ | ORepair _ _ _ _ _ _ _ _ | OReload => m
  | OPopulate _ _ _ _ _ _ e => sputs sempty e
  end.

(** clocks: seconds since 1970, non-zero and before 2^32-1 *)
Definition tick (t : N) : Prop := 0 < t < max_u32.
(** field widths, and update time before 2^32-1 *)
Definition storable (e : element) : Prop := elem_ok e /\ e_upd e < max_u32.
Definition stored (e : element) : Prop := elem_ok e /\ tick (e_upd e).

(** Sizes for which building a list of [n] elements neither panics nor hangs:
    (merge+split)/2 >= 1, and above 100000 elements SplitSize >= 4 and a positive
    chunk size.  [want] is populate's computed size. *)
Definition build_sizes (merge split want n : nat) : Prop :=
  (2 <= merge + split)%nat /\
  ((N.to_nat 100000 < n)%nat -> (4 <= split)%nat /\ (4 <= merge \/ 0 < want)%nat).

(** the number of elements of [m] *)
Definition sized (m : smap) (p : nat -> Prop) : Prop := forall r, ranking_of (sin m) r -> p (length r).

Definition op_ok (merge split : nat) (m : smap) (o : op) : Prop :=
  match o with
  | OUpdate clk clki now _ e =>
      distinct_ids e /\ Forall storable e /\ (forall id, tick (clk id)) /\ (forall id, tick (clki id)) /\ tick now
  | OInsert now _ e =>
      distinct_ids e /\ Forall stored e /\ (forall x, In x e -> m (e_id x) = None) /\ tick now /\ (4 <= split)%nat
  | ODelete now _ _ ids => Forall (fun v => v <= max_u64) ids /\ tick now
  | OSplit _ now => tick now
  | OReindex ni now _ =>
      ni <> ""%string /\ tick now /\ (2 <= merge + split)%nat /\ sized m (fun n => N.of_nat n < max_u32)
  | ORepair ns ni now _ _ _ _ want =>
      ns <> ""%string /\ ni <> ""%string /\ tick now /\
      sized m (fun n => N.of_nat n < max_u32 /\ build_sizes merge split want n)
  | OPopulate ns ni now _ _ want e =>
      ns <> ""%string /\ ni <> ""%string /\ tick now /\ distinct_ids e /\ Forall stored e /\
      N.of_nat (length e) < max_u32 /\ build_sizes merge split want (length e)
  | OReload => True
  end.

(** Lists that calls can produce, with the map they stand for *)
Inductive reachable : nat -> nat -> lst -> smap -> Prop :=
| R_new merge split ns ni now sc sch want e l :
    (merge < split)%nat -> build_sizes merge split want (length e) -> ns <> ""%string -> ni <> ""%string -> tick now ->
    distinct_ids e -> Forall elem_ok e -> N.of_nat (length e) < max_u32 ->
    new_list merge split ns ni now sc sch want e = Done l ->
    reachable merge split l (sputs sempty (map (restamp now) e))
| R_clone merge0 split0 org m merge split ns ni now l :
    reachable merge0 split0 org m ->
    (merge < split)%nat -> (2 <= merge + split)%nat -> ns <> ""%string -> ni <> ""%string -> tick now ->
    sized m (fun n => N.of_nat n < max_u32) ->
    clone_elements merge split ns ni now org = Done l ->
    reachable merge split l m
| R_restore merge split org m ns ni now sc l :
    reachable merge split org m ->
    (2 <= merge + split)%nat -> ns <> ""%string -> ni <> ""%string -> tick now ->
    sized m (fun n => N.of_nat n < max_u32) ->
    restored ns ni now sc org = Done l ->
    reachable merge split l m
| R_step merge split l m o l' :
    reachable merge split l m -> op_ok merge split m o -> step l o = Done l' ->
    reachable merge split l' (spec_step m o).

(** histories *)
Fixpoint spec_run (m : smap) (ops : list op) : smap :=
  match ops with [] => m | o :: r => spec_run (spec_step m o) r end.
Fixpoint ops_ok (merge split : nat) (m : smap) (ops : list op) : Prop :=
  match ops with [] => True | o :: r => op_ok merge split m o /\ ops_ok merge split (spec_step m o) r end.
