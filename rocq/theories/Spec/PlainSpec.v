(** A store as the last write to each set and key. *)
From Coq Require Import Strings.String Strings.Ascii Permutation Sorted.
From Verif.Lib Require Import Prelude Bytes.
From Verif.Model Require Import Keys PlainStore.
Open Scope N_scope.

(** [h]: the calls so far, the newest first; [ok s k v]: such a write is taken *)
Fixpoint last_write (ok : bytes -> bytes -> bytes -> Prop) (h : list scall) (s k : bytes) (r : option bytes) : Prop :=
  match h with
  | [] => r = None
  | PSet s' k' v :: h => (s' = s /\ k' = k /\ ok s' k' v /\ r = Some v) \/ (~ (s' = s /\ k' = k /\ ok s' k' v) /\ last_write ok h s k r)
  | PDel s' k' :: h => (s' = s /\ k' = k /\ r = None) \/ (~ (s' = s /\ k' = k) /\ last_write ok h s k r)
  | PCreate s' k' v :: h =>
      (s' = s /\ k' = k /\ ok s' k' v /\ last_write ok h s k None /\ r = Some v) \/
      (~ (s' = s /\ k' = k /\ ok s' k' v /\ last_write ok h s k None) /\ last_write ok h s k r)
  | _ :: h => last_write ok h s k r
  end.

(** blobs are at most 1 MB and keys have two bytes or more *)
Definition mem_takes (s k v : bytes) : Prop := N.of_nat (length v) <= 2 ^ 20 /\ (2 <= length k)%nat.

(** calls of each kind for a key that reached the map *)
Definition reads_of (h : list scall) (s k : bytes) : nat :=
  length (filter (fun c => match c with PGet a b => beq a s && beq b k | _ => false end) h).
Definition deletes_of (h : list scall) (s k : bytes) : nat :=
  length (filter (fun c => match c with PDel a b => beq a s && beq b k | _ => false end) h).
Definition writes_of (h : list scall) (s k : bytes) : nat :=
  length (filter (fun c => match c with PSet a b v => beq a s && beq b k && (N.of_nat (length v) <=? 2 ^ 20) && Nat.leb 2 (length b) | _ => false end) h).
(** what Dir prints for a blob *)
Definition line_of (h : list scall) (s k v : bytes) : bytes :=
  k ++ lit ": " ++ decimal (N.of_nat (length v)) ++ lit " bytes [r:" ++ decimal (N.of_nat (reads_of h s k)) ++
  lit ", w:" ++ decimal (N.of_nat (writes_of h s k)) ++ lit ", d:" ++ decimal (N.of_nat (deletes_of h s k)) ++ lit "]".

(** all blobs of a set, each once *)
Definition blobs_of (h : list scall) (s : bytes) (l : list (bytes * bytes)) : Prop :=
  NoDup (map fst l) /\ forall k v, In (k, v) l <-> last_write mem_takes h s k (Some v).
(** bytewise order *)
Inductive lex_le : bytes -> bytes -> Prop :=
| lex_nil b : lex_le [] b
| lex_less c d a b : N_of_ascii c < N_of_ascii d -> lex_le (c :: a) (d :: b)
| lex_same c a b : lex_le a b -> lex_le (c :: a) (c :: b).

(** the answer of the memory store to [c] after [h] *)
Definition mem_fits (h : list scall) (c : scall) (a : sans) : Prop :=
  match c with
  | PGet s k => (exists v, last_write mem_takes h s k (Some v) /\ a = AVal v) \/ (last_write mem_takes h s k None /\ a = ANotFound)
  | PSet s k v => (mem_takes s k v /\ a = AOk) \/ (2 ^ 20 < N.of_nat (length v) /\ a = ATooBig) \/ (N.of_nat (length v) <= 2 ^ 20 /\ (length k < 2)%nat /\ a = AShort)
  | PDel _ _ => a = AOk
  | PUsage s => exists l, blobs_of h s l /\ a = AUse (length l) (list_sum (map (fun e => length (snd e)) l))
  | PDir s => exists l ls, blobs_of h s l /\ a = ADir ls /\ StronglySorted lex_le ls /\ Permutation ls (map (fun e => line_of h s (fst e) (snd e)) l)
  | PCreate _ _ _ => True
  end.
(** the same for a store that keeps buckets *)
Definition bolt_fits (ok : bytes -> bytes -> bytes -> Prop) (h : list scall) (c : scall) (a : sans) : Prop :=
  match c with
  | PGet s k => (exists v, last_write ok h s k (Some v) /\ a = AVal v) \/ (last_write ok h s k None /\ a = ANotFound)
  | PSet s k v => (ok s k v /\ a = AOk) \/ (~ ok s k v /\ a = ARefused)
  | PCreate s k v => ((exists w, last_write ok h s k (Some w)) /\ a = AExists) \/
      (last_write ok h s k None /\ ok s k v /\ a = AOk) \/ (last_write ok h s k None /\ ~ ok s k v /\ a = ARefused)
  | PDel _ _ => a = AOk
  | PUsage _ | PDir _ => True
  end.
(** every answer fits the calls before it *)
Fixpoint all_fit (fits : list scall -> scall -> sans -> Prop) (h : list scall) (cs : list scall) (as_ : list sans) : Prop :=
  match cs, as_ with
  | [], [] => True
  | c :: cs, a :: as_ => fits h c a /\ all_fit fits (c :: h) cs as_
  | _, _ => False
  end.

(** the set and key that a call names *)
Definition names (c : scall) (s k : bytes) : Prop :=
  match c with PGet a b | PSet a b _ | PDel a b | PCreate a b _ => a = s /\ b = k | _ => False end.
Definition no_slash (b : bytes) : Prop := ~ In "/"%char b.
