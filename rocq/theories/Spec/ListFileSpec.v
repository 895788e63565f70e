(** What a server that saves its list file and stops at any time has to keep.  [holdings] gives the
    elements of every list that is not lost; nothing here looks at stored bytes. *)
From Coq Require Import Strings.String.
From Verif.Lib Require Import Prelude ListAux Bytes.
From Verif.Model Require Import Element Elements Segment List Keys Storage ListFile.
From Verif.Spec Require Import RankSpec QuerySpec HistorySpec AnswerSpec StorageSpec.
Open Scope N_scope.

Definition holdings := string -> option entry.
Definition set (id : string) (v : option entry) (sp : holdings) : holdings := fun j => if String.eqb j id then v else sp j.

(** names that may not be taken again: those of any descriptor, in memory, in the file, or in a
    running save *)
Definition names_of (x : desc) : list string := [ds_scores x; ds_index x].
Definition encoded (s : sys) : list desc := match y_save s with Some (_, b) => b | None => [] end.
Definition known_names (s : sys) : list string := flat_map names_of (descs s ++ y_file s ++ encoded s).
Definition new_name (s : sys) (n : string) : Prop := plain n /\ ~ In n (known_names s) /\ unused (y_c s) n.
(** names that a call takes *)
Definition takes (a : act) : list string :=
  match a with
  | ANew _ _ ns ni _ _ _ _ _ _ | AClone _ _ _ ns ni _ => [ns; ni]
  | AOp _ (OReindex ni _ _) _ => [ni]
  | AOp _ (ORepair ns ni _ _ _ _ _ _) _ | AOp _ (OPopulate ns ni _ _ _ _ _) _ => [ns; ni]
  | _ => []
  end.
Definition creates (a : act) : bool := match a with ANew _ _ _ _ _ _ _ _ _ _ | AClone _ _ _ _ _ _ => true | _ => false end.

(** what callers must respect: Model/Storage.v's rules, names and IDs that are not in use *)
Definition call_ok (s : sys) (sp : holdings) (nid : string) (a : act) : Prop :=
  exists ms, map (fun p => sp (fst p)) (y_open s) = map Some ms /\ act_ok (lists_of s) ms a /\
    Forall (new_name s) (takes a) /\ (creates a = true -> ~ In nid (ids s)) /\ Forall (fun x => map_fits (snd x)) (act_spec ms a).
Definition event_ok (s : sys) (sp : holdings) (e : event) : Prop :=
  match e with
  | ECall nid a _ => call_ok s sp nid a
  | EOpen id true n0 ni now sc => new_name s n0 /\ new_name s ni /\ n0 <> ni /\
      forall g z m, sp id = Some (g, z, m) -> op_ok g z m (OReindex ni now sc)
  | EClear id ns ni now => forall x, find_desc id (y_cold s) = Some x ->
      exists ms, map (fun p => sp (fst p)) (y_open s) = map Some ms /\ act_ok (lists_of s) ms (empty_list x ns ni now) /\ Forall (new_name s) [ns; ni]
  | _ => True
  end.

(** the contents after an event.  Only a stop loses: of a list it keeps the contents if the file
    knows it under the name that its scores have now. *)
Definition call_spec (s : sys) (nid : string) (a : act) (sp : holdings) : holdings :=
  let at_ i f := match nth_error (y_open s) i with Some (id, _) => f id (sp id) | None => sp end in
  match a with
  | ANew merge split _ _ now _ _ _ e _ => set nid (Some (merge, split, sputs sempty (map (restamp now) e))) sp
  | AClone i merge split _ _ _ => at_ i (fun _ v => set nid (match v with Some (_, _, m) => Some (merge, split, m) | None => None end) sp)
  | AOp i o _ => at_ i (fun id v => set id (match v with Some (g, z, m) => Some (g, z, spec_step m o) | None => None end) sp)
  | ARemove i _ => at_ i (fun id _ => set id None sp)
  | AEvict _ | AFill _ _ _ => sp
  end.
Definition survives (s : sys) (sp : holdings) : holdings := fun id =>
  match find_desc id (y_file s), find_desc id (descs s) with
  | Some x, Some y => if String.eqb (ds_scores x) (ds_scores y) then sp id else None
  | _, _ => None
  end.
Definition spec_next (s : sys) (e : event) (sp : holdings) : holdings :=
  match e with
  | ECall nid a _ => call_spec s nid a sp
  | EClear id _ _ _ => match find_desc id (y_cold s) with Some x => set id (Some (ds_merge x, ds_split x, sempty)) sp | None => sp end
  | EStop => survives s sp
  | _ => sp
  end.

(** executions, from a store with anything in it and no list file; a start may change whether
    there is a cache *)
Inductive serves : bool -> sys -> holdings -> Prop :=
| V_start cfg st c : serves cfg (mkY st c [] [] [] None) (fun _ => None)
| V_next cfg cfg' s sp e s' : serves cfg s sp -> event_ok s sp e -> next cfg s e = Some s' -> (e <> EStop -> cfg' = cfg) ->
    serves cfg' s' (spec_next s e sp).

(** ** What is asked of an execution *)
(** the list [id] is in memory, and its readers get the elements of [m] *)
Definition readable (s : sys) (id : string) (g z : nat) (m : smap) : Prop :=
  exists d l, In (id, d) (y_open s) /\ Storage.view (y_st s) (y_c s) d = Some l /\ reachable g z l m /\
    forall r, ranking_of (sin m) r -> answers l r.

(** the states since the running save began, the latest first *)
Inductive saving (cfg : bool) : list sys -> sys -> holdings -> Prop :=
| G_begin s sp s' : serves cfg s sp -> next cfg s EBegin = Some s' -> saving cfg [s'] s' sp
| G_next h s sp e s' : saving cfg h s sp -> event_ok s sp e -> next cfg s e = Some s' ->
    match e with EEnd | EFail | EStop => False | _ => True end -> saving cfg (s' :: h) s' (spec_next s e sp).

(** events that make, remake and remove no list *)
Definition steady (e : event) : Prop :=
  match e with
  | ECall _ (AOp _ o _) _ => match o with ORepair _ _ _ _ _ _ _ _ | OPopulate _ _ _ _ _ _ _ => False | _ => True end
  | ECall _ (AEvict _) _ | ECall _ (AFill _ _ _) _ => True
  | ECall _ _ _ | EClear _ _ _ _ | EEnd | EStop => False
  | _ => True
  end.
Inductive steadily (cfg : bool) : sys -> holdings -> sys -> holdings -> Prop :=
| T_here s sp : steadily cfg s sp s sp
| T_next s sp s1 sp1 e s2 : steadily cfg s sp s1 sp1 -> event_ok s1 sp1 e -> next cfg s1 e = Some s2 -> steady e ->
    steadily cfg s sp s2 (spec_next s1 e sp1).
