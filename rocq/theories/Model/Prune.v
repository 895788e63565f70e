(** Model of the list pruner: /repo/manager.go:103-130 (StartListPruner) and lists.go:239-265
    (Lists.Prune), among calls that make, delete and load lists.  A ticker (outside library) has
    room for one tick, further ones are lost.  Go's select takes any case that is ready.
    sync.Map.Range meets no key twice, and every key that is there from its beginning to its end.
    ReleaseSegments (Model/Release.v) is one step here: it releases, or gives up after a minute.
    Meeting a list and reading its LoadIndex is the same step.
    The context of the pruner is never cancelled (api/rankdb.go:263).  LoadIndex of a list does
    not change (list.go:166). *)
From Coq Require Import Strings.String.
From Verif.Lib Require Import Prelude ListAux.
Open Scope nat_scope.

(** a list: its LoadIndex, and whether its segments are in memory *)
Record plist := mkPL { pl_id : string; pl_keep : bool; pl_mem : bool }.
(** manager.go:115 waiting in select; within Prune: the keys met, and those that were there all
    the time and are still to be met; stopped (123-126) *)
Inductive ppc := PWait | PRound (seen owed : list string) | PStop.
Record pcfg := mkP { p_lists : list plist; p_pc : ppc; p_tick : bool; p_ask : bool }.
Inductive pchoice :=
| K_tick                          (* the interval is over *)
| K_take                          (* manager.go:116-122 *)
| K_visit (id : string) (ok : bool)  (* lists.go:244-262; [ok]: the release was in time *)
| K_done                          (* Range has ended *)
| K_ask                           (* shutdown asks *)
| K_end                           (* manager.go:123-126, 107-108 *)
| K_add (id : string) (keep mem : bool)   (* lists.go:268-274 *)
| K_del (id : string)             (* lists.go:318-320 *)
| K_load (id : string).           (* a call loads the segments *)

Definition p_find (id : string) (l : list plist) : option plist := find (fun x => String.eqb (pl_id x) id) l.
Definition p_drop (id : string) (l : list plist) : list plist := filter (fun x => negb (String.eqb (pl_id x) id)) l.
Definition p_set (id : string) (mem : bool) (l : list plist) : list plist :=
  map (fun x => if String.eqb (pl_id x) id then mkPL (pl_id x) (pl_keep x) mem else x) l.
Definition strike (id : string) (l : list string) : list string := filter (fun x => negb (String.eqb x id)) l.
Definition met (id : string) (l : list string) : bool := existsb (String.eqb id) l.

(** [every]: the interval is not 0 *)
Definition pfire (every : bool) (s : pcfg) (x : pchoice) : option pcfg :=
  match x with
  | K_tick => if every then Some (mkP (p_lists s) (p_pc s) true (p_ask s)) else None          (* manager.go:105-111 *)
  | K_take => match p_pc s, p_tick s with
              | PWait, true => Some (mkP (p_lists s) (PRound [] (map pl_id (p_lists s))) false (p_ask s))
              | _, _ => None
              end
  | K_visit id ok =>
    match p_pc s, p_find id (p_lists s) with
    | PRound seen owed, Some a =>
        if met id seen then None
        else Some (mkP (if negb (pl_keep a) && ok then p_set id false (p_lists s) else p_lists s) (PRound (id :: seen) (strike id owed)) (p_tick s) (p_ask s))
    | _, _ => None
    end
  | K_done => match p_pc s with PRound _ [] => Some (mkP (p_lists s) PWait (p_tick s) (p_ask s)) | _ => None end
  | K_ask => Some (mkP (p_lists s) (p_pc s) (p_tick s) true)
  | K_end => match p_pc s, p_ask s with PWait, true => Some (mkP (p_lists s) PStop (p_tick s) (p_ask s)) | _, _ => None end
  | K_add id keep mem => Some (mkP (mkPL id keep mem :: p_drop id (p_lists s)) (p_pc s) (p_tick s) (p_ask s))
  | K_del id => Some (mkP (p_drop id (p_lists s)) (match p_pc s with PRound seen owed => PRound seen (strike id owed) | pc => pc end) (p_tick s) (p_ask s))
  | K_load id => Some (mkP (p_set id true (p_lists s)) (p_pc s) (p_tick s) (p_ask s))
  end.
Fixpoint pplay (every : bool) (s : pcfg) (l : list pchoice) : option pcfg :=
  match l with
  | [] => Some s
  | x :: l => match pfire every s x with Some s => pplay every s l | None => None end
  end.
Definition pstart (lists : list plist) : pcfg := mkP lists PWait false false.
