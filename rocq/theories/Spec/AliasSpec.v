(** For calls on a list whose segments are cached in the arrays that the calls work in. *)
From Verif.Lib Require Import Prelude.
From Verif.Model Require Import Element Elements Segment Fails.

(** what readers get of a segment with [old] before the call and [new] as the call makes it, when its write has fate [f].
    [h]: cached; [part]: what a cached slice shows if the write returned an error *)
Definition shown (h : bool) (f : fate) (part old new : elements) : elements :=
  match f, h with
  | Kept, _ => new
  | _, true => part
  | Unsure, false => new
  | Refused, false => old
  end.
(** the segments [got] are those of the complete call, counters included, with other elements where writes failed *)
Definition mixed (h : bool) (fs : nat -> fate) (part : nat -> elements -> elements -> elements -> Prop) (old new got : list seg) : Prop :=
  length got = length new /\
  forall i o n, nth_error old i = Some o -> nth_error new i = Some n ->
    exists p, part i (sg_elems o) (sg_elems n) p /\
      nth_error got i = Some (set_elems (fun e => shown h (fs i) p (sg_elems o) e) n).
(** a failed delete: the elements that stay, moved to the front, and what is left of the old ones behind them *)
Definition part_delete (_ : nat) (old new p : elements) : Prop := p = new ++ skipn (length new) old.
(** a failed insert: the front of the new elements if the array has room for them, at most 10 are new and at most 1000 in all *)
Definition part_insert (room : nat -> elements) (i : nat) (old new p : elements) : Prop :=
  p = if Nat.leb (length new) (length old + length (room i)) && Nat.leb (length new) 1000 && Nat.leb (length new) (length old + 10)
      then firstn (length old) new else old.
(** a failed update: as many elements as before, each an old one or one that the call stores *)
Definition part_update (adds : element -> Prop) (_ : nat) (old new p : elements) : Prop :=
  length p = length old /\ forall x, In x p -> In x old \/ adds x.
(** [n] is a segment of the complete call whose write reaches the store *)
Definition written (fs : nat -> fate) (new : list seg) (n : seg) : Prop := exists i, nth_error new i = Some n /\ reaches (fs i) = true.
(** ... and not as it was before *)
Definition rewritten (fs : nat -> fate) (old new : list seg) (n : seg) : Prop :=
  exists i, nth_error new i = Some n /\ nth_error old i <> Some n /\ reaches (fs i) = true.
