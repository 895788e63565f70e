(** What background splitting has to keep and may be relied on for.  Contents are maps
    (Spec/HistorySpec.v); nothing here looks at segments or the queue. *)
From Coq Require Import Strings.String.
From Verif.Lib Require Import Prelude ListAux.
From Verif.Model Require Import Element Elements Segment List Splitter.
From Verif.Spec Require Import RankSpec QuerySpec HistorySpec AnswerSpec.
Open Scope nat_scope.

(** sizes and elements of each list; None: deleted *)
Definition entry : Type := nat * nat * smap.
Definition books := list (option entry).
Definition book (b : books) (i : nat) : option entry := match nth_error b i with Some v => v | None => None end.
Definition bspec (b : books) (e : bevent) : books :=
  match e with
  | BNew merge split _ _ now _ _ _ e => b ++ [Some (merge, split, sputs sempty (map (restamp now) e))]
  | BClone i merge split _ _ _ => b ++ [match book b i with Some (_, _, m) => Some (merge, split, m) | None => None end]
  | BCall i o => upd_nth i (fun v => match v with Some (g, z, m) => Some (g, z, spec_step m o) | None => None end) b
  | BDelete i => upd_nth i (fun _ => None) b
  | BVerify _ | BSplit _ => b
  end.

(** what callers must respect; the splitter is the only one to split *)
Definition bevent_ok (b : books) (e : bevent) : Prop :=
  match e with
  | BNew merge split ns ni now _ _ want e =>
      merge < split /\ build_sizes merge split want (length e) /\ ns <> ""%string /\ ni <> ""%string /\ tick now /\
      distinct_ids e /\ Forall elem_ok e /\ (N.of_nat (length e) < max_u32)%N
  | BClone i merge split ns ni now =>
      merge < split /\ 2 <= merge + split /\ ns <> ""%string /\ ni <> ""%string /\ tick now /\
      forall g z m, book b i = Some (g, z, m) -> sized m (fun n => (N.of_nat n < max_u32)%N)
  | BCall i o => (forall g z m, book b i = Some (g, z, m) -> op_ok g z m o) /\ match o with OSplit _ _ => False | _ => True end
  | BSplit now => tick now
  | BVerify _ | BDelete _ => True
  end.

(** a list object and its entry agree *)
Definition agree (o : option lst) (v : option entry) : Prop :=
  match o, v with Some l, Some (g, z, m) => reachable g z l m | None, None => True | _, _ => False end.
(** executions; the trace has the state before every event, the latest first.  A server starts
    with the lists it loaded and an empty queue. *)
Definition trace := list (bg * bevent).
Inductive goes (s : bg) : trace -> bg -> Prop :=
| G_nil : goes s [] s
| G_next tr t e t' : goes s tr t -> bnext t e = Some t' -> goes s ((t, e) :: tr) t'.
Inductive bexec : trace -> bg -> books -> Prop :=
| X_start os b : Forall2 agree os b -> (forall o, In o os -> o <> None) -> bexec [] (mkB os [] true) b
| X_next tr s b e s' : bexec tr s b -> bevent_ok b e -> bnext s e = Some s' -> bexec ((s, e) :: tr) s' (bspec b e).

(** the list that an event works on *)
Definition on (s : bg) (e : bevent) (i : nat) : Prop :=
  match e with
  | BNew _ _ _ _ _ _ _ _ _ | BClone _ _ _ _ _ _ => i = length (b_objs s)
  | BCall j _ | BVerify j | BDelete j => i = j
  | BSplit _ => exists q, b_queue s = i :: q
  end.
Definition asking (e : bevent) : Prop :=
  match e with BCall _ o => match o with OReindex _ _ _ | OReload => False | _ => True end | BVerify _ => True | _ => False end.
(** the last event on list [i]; the trace before and since then *)
Definition last_on (i : nat) (tr : trace) (s : bg) (e : bevent) : Prop :=
  exists since before, tr = since ++ (s, e) :: before /\ on s e i /\ forall t x, In (t, x) since -> ~ on t x i.
Definition splits (tr : trace) : nat := length (filter (fun p => match snd p with BSplit _ => true | _ => false end) tr).

(** a segment is above the split size, or with the one before it below the merge size: in terms of
    the numbers of elements *)
Definition misfit (merge split : nat) (ls : list (list element)) : Prop :=
  Exists (fun e => split < length e) ls \/ exists a p e b, ls = a ++ p :: e :: b /\ length p + length e < merge.
(** the passes over list [i] *)
Definition turn (i : nat) (p : bg * bevent) : bool :=
  match snd p, b_queue (fst p) with BSplit _, j :: _ => j =? i | _, _ => false end.
Definition turns (i : nat) (tr : trace) : nat := length (filter (turn i) tr).
