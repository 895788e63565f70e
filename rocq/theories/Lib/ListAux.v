(** List functions that correspond to Go slice operations, and their lemmas. *)
From Verif.Lib Require Import Prelude.

Section Aux.
  Context {A : Type}.

  (** index of the first element satisfying [p] *)
  Fixpoint find_idx (p : A -> bool) (l : list A) : option nat :=
    match l with
    | [] => None
    | x :: r => if p x then Some 0 else
                match find_idx p r with Some n => Some (S n) | None => None end
    end.

  (** Go slice expression l[a:b] (for a <= b <= len l) *)
  Definition slice (l : list A) (a b : nat) : list A := firstn (b - a) (skipn a l).

  (** l[i] = f(l[i]) *)
  Fixpoint upd_nth (i : nat) (f : A -> A) (l : list A) : list A :=
    match l, i with
    | [], _ => []
    | x :: r, O => f x :: r
    | x :: r, S k => x :: upd_nth k f r
    end.

  (** insert x before position i *)
  Fixpoint ins_nth (i : nat) (x : A) (l : list A) : list A :=
    match i, l with
    | O, _ => x :: l
    | S k, y :: r => y :: ins_nth k x r
    | S _, [] => [x]
    end.

  (** remove position i *)
  Fixpoint del_nth (i : nat) (l : list A) : list A :=
    match l, i with
    | [], _ => []
    | _ :: r, O => r
    | x :: r, S k => x :: del_nth k r
    end.

  (** map with position *)
  Fixpoint mapi_from {B} (k : nat) (f : nat -> A -> B) (l : list A) : list B :=
    match l with [] => [] | x :: r => f k x :: mapi_from (S k) f r end.
  Definition mapi {B} (f : nat -> A -> B) (l : list A) := mapi_from 0 f l.

  (** stable insertion sort; [le x y] = x may stay before y *)
  Fixpoint insert_by (lt : A -> A -> bool) (x : A) (l : list A) : list A :=
    match l with
    | [] => [x]
    | y :: r => if lt y x then y :: insert_by lt x r else x :: y :: r
    end.
  Fixpoint sort_by (lt : A -> A -> bool) (l : list A) : list A :=
    match l with [] => [] | x :: r => insert_by lt x (sort_by lt r) end.

  (** Go's sort.SliceIsSorted: no adjacent pair is inverted *)
  Fixpoint is_sorted_by (lt : A -> A -> bool) (l : list A) : bool :=
    match l with
    | [] => true
    | x :: r => match r with
                | [] => true
                | y :: _ => negb (lt y x) && is_sorted_by lt r
                end
    end.
End Aux.

(** A schedule is a list of naturals; [permute sc l] repeatedly removes the
    (code mod length)-th remaining element.  Every schedule denotes a
    permutation and every permutation is denoted by some schedule (Lib/Perm.v). *)
Fixpoint permute_aux {A} (fuel : nat) (sc : list nat) (l : list A) : list A :=
  match fuel with
  | O => l
  | S f =>
    match l with
    | [] => []
    | x :: _ =>
      let c := match sc with [] => 0 | c :: _ => c mod length l end in
      let sc' := match sc with [] => [] | _ :: r => r end in
      nth c l x :: permute_aux f sc' (del_nth c l)
    end
  end.
Definition permute {A} (sc : list nat) (l : list A) : list A := permute_aux (length l) sc l.
