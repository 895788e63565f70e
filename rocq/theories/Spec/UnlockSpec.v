(** What a call may leave locked, told from the accesses to the store it made. *)
From Coq Require Import List Bool Arith Permutation.
From Verif.Model Require Import Unlock.
Import ListNotations.

(** the accesses whose failure costs a lock *)
Definition costly (x : site) : bool :=
  match x with
  | SetFirst | SetPopIndex | PutScores | SetReindexed ByReindex | SetReindexed ByRead => true
  | _ => false
  end.
(** the first of these that failed; newest access first *)
Fixpoint lost (l : list (site * bool)) : option site :=
  match l with
  | [] => None
  | (x, ok) :: r => match lost r with Some y => Some y | None => if negb ok && costly x then Some x else None end
  end.
(** [l] ends in [old]; what was put before it *)
Definition since (old l : list (site * bool)) : list (site * bool) := firstn (length l - length old) l.

(** A list between calls: every loader belongs to one segment of one collection, the list has both collections or none, and they are
    different. *)
Record settled (s : st) : Prop := {
  s_free : held s = [];
  s_nodup : forall c, NoDup (coll s c);
  s_known : forall c i, In i (coll s c) -> i < next s;
  s_own : forall c c' i, In i (coll s c) -> In i (coll s c') -> c = c';
  s_list : match l_sc s, l_ix s with
           | Some c, Some x => c < next s /\ x < next s /\ c <> x /\ scset s = true /\ ixset s = true
           | None, None => scset s = ixset s
           | _, _ => False
           end
}.

(** ended by itself, with a result or a panic *)
Definition ends {A} (r : res A) : Prop := r = Raise \/ exists a, r = Ret a.

(** the calls that make them *)
Definition costs (c : call) (x : site) : bool :=
  match x, c with
  | SetFirst, Split | SetPopIndex, Populate | SetPopIndex, Repair | PutScores, Backup | SetReindexed ByReindex, Reindex => true
  | SetReindexed ByRead, (Update _ | Delete | Insert | VerifyElements | Backup) => true
  | _, _ => false
  end.
(** what the call [c] from [s] leaves *)
Definition leaves (c : call) (s : st) (r : res bool) (s' : st) : Prop :=
  match lost (since (acc s) (acc s')) with
  | None => (ends r /\ settled s')
            \/ (c = Repair /\ r = Raise /\ (exists k, l_sc s' = Some k /\ Permutation (held s') [(KList, true); (KStats k, true)])
                /\ (In (GetScores, false) (since (acc s) (acc s')) \/ In (GetIndex, false) (since (acc s) (acc s'))))
  | Some x =>
    costs c x = true /\
    match x with
    | SetFirst => r = Ret false /\ exists k i, (l_sc s' = Some k \/ l_ix s' = Some k) /\ In i (coll s' k) /\ held s' = [(KSeg i, true)]
    | SetPopIndex => r = Ret false /\ held s' = [(KList, true)]
    | PutScores => r = Ret false /\ exists k, l_sc s' = Some k /\ held s' = [(KStats k, false)]
    | _ => r = Dead
    end
  end.

(** calls one after the other, each with its own accesses *)
Fixpoint run_calls (l : list call) (s : st) : res bool * st :=
  match l with
  | [] => (Ret true, s)
  | c :: r => match run c s with
              | (Dead, s') => (Dead, s') | (Stuck, s') => (Stuck, s')
              | (_, s') => run_calls r s'
              end
  end.

(** none of the accesses failed that cost a lock, and no metadata was missing when Repair ran *)
Fixpoint calm (l : list call) (s : st) : Prop :=
  match l with
  | [] => True
  | c :: r =>
    let s' := snd (run c s) in
    let new := since (acc s) (acc s') in
    lost new = None /\ (c = Repair -> ~ In (GetScores, false) new /\ ~ In (GetIndex, false) new) /\ calm r s'
  end.
(** the list is locked for ever: nobody is left to unlock it *)
Definition shut (s : st) : Prop := In (KList, true) (held s).
(** the calls that do not need the RWMutex of the list, or drop the error *)
Definition unaware (c : call) : bool := match c with Len | Stats _ | DeleteAll => true | _ => false end.
