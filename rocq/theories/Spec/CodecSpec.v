(** What "decodes to what was encoded" means, and which values a record may hold: the widths
    of the Go types, and lengths below 2^32. *)
From Coq Require Import Strings.Byte Strings.String.
From Verif.Lib Require Import Prelude.
From Verif.Model Require Import Element Msgp Codec.
Open Scope N_scope.

(** for every value, whatever follows in the stream: the same value, and what follows *)
Definition round_trips {A} (ok : A -> Prop) (w : A -> list byte) (r : list byte -> option (A * list byte)) : Prop :=
  forall a rest, ok a -> r (w a ++ rest) = Some (a, rest).
(** every encoding cut short is refused *)
Definition refuses_truncated {A} (ok : A -> Prop) (w : A -> list byte) (r : list byte -> option (A * list byte)) : Prop :=
  forall a b c, ok a -> w a = b ++ c -> c <> [] -> r b = None.
(** no encoding begins another *)
Definition prefix_free {A} (ok : A -> Prop) (w : A -> list byte) : Prop :=
  forall a b c d, ok a -> ok b -> w a ++ c = w b ++ d -> a = b /\ c = d.
(** a sequence of records is determined by its bytes, given where it ends *)
Definition streams_unique {A} (ok : A -> Prop) (w : A -> list byte) : Prop :=
  forall l1 l2, Forall ok l1 -> Forall ok l2 -> concat (map w l1) = concat (map w l2) -> l1 = l2.

(** all of it *)
Definition codec {A} (ok : A -> Prop) (w : A -> list byte) (r : list byte -> option (A * list byte)) : Prop :=
  round_trips ok w r /\ refuses_truncated ok w r /\ prefix_free ok w /\ streams_unique ok w.

Definition short_str (s : string) : Prop := N.of_nat (String.length s) < 2 ^ 32.
Definition short {A} (l : list A) : Prop := N.of_nat (length l) < 2 ^ 32.
Definition int64 (z : Z) : Prop := (- 2 ^ 63 <= z < 2 ^ 63)%Z.

Definition element_fits (e : element) : Prop :=
  e_score e < 2 ^ 64 /\ e_id e < 2 ^ 64 /\ short (e_payload e) /\ e_tie e < 2 ^ 32 /\ e_upd e < 2 ^ 32.
Definition elements_fit (l : list element) : Prop := short l /\ Forall element_fits l.
Definition segment_fits (s : wseg) : Prop :=
  w_id s < 2 ^ 32 /\ w_min s < 2 ^ 64 /\ w_max s < 2 ^ 64 /\ w_mintie s < 2 ^ 32 /\ w_maxtie s < 2 ^ 32 /\
  int64 (w_n s) /\ int64 (w_upd s) /\ short_str (w_parent s).
Definition segments_fit (s : wsegs) : Prop :=
  short_str (ws_id s) /\ short (ws_segs s) /\ Forall segment_fits (ws_segs s) /\ ws_next s < 2 ^ 32.
(** a map has each key once *)
Definition meta_fits (m : list (string * string)) : Prop :=
  short m /\ NoDup (map fst m) /\ Forall (fun p => short_str (fst p) /\ short_str (snd p)) m.
Definition list_fits (l : wlist) : Prop :=
  short_str (wl_id l) /\ short_str (wl_set l) /\ meta_fits (meta_of (wl_meta l)) /\ int64 (wl_split l) /\
  int64 (wl_merge l) /\ short_str (wl_scores l) /\ short_str (wl_index l).
(** the same list, with a nil metadata map taken for an empty one *)
Definition with_map (l : wlist) : wlist :=
  WList (wl_id l) (wl_set l) (Some (meta_of (wl_meta l))) (wl_split l) (wl_merge l) (wl_load l) (wl_scores l) (wl_index l).
Definition has_map (l : wlist) : Prop := wl_meta l <> None.

(** the value of a key that may be written several times: the last one *)
Definition last_of (k : string) (ps : list (string * string)) : option string :=
  fold_left (fun o p => if String.eqb (fst p) k then Some (snd p) else o) ps None.
(** the value of a key in a map *)
Definition value_of (k : string) (m : list (string * string)) : option string := option_map snd (find (fun p => String.eqb (fst p) k) m).

(** ** a segment collection written with its fields in any order, some missing, some repeated *)
Inductive sfield := FId (s : string) | FSegs (l : list wseg) | FNext (n : N) | FIndex (b : bool).
Definition sfield_bytes (f : sfield) : wire :=
  match f with
  | FId s => w_key "ID" ++ w_str s
  | FSegs l => w_key "Segments" ++ w_arr (len32 l) ++ flat_map w_segment l
  | FNext n => w_key "NextID" ++ w_uint n
  | FIndex b => w_key "IsIndex" ++ w_bool b
  end.
Definition sfield_fits (f : sfield) : Prop :=
  match f with FId s => short_str s | FSegs l => short l /\ Forall segment_fits l | FNext n => n < 2 ^ 32 | FIndex _ => True end.
(** the last value that [f] finds, or [d] *)
Fixpoint last_value {A B} (f : A -> option B) (d : B) (l : list A) : B :=
  match l with [] => d | x :: l => last_value f (match f x with Some v => v | None => d end) l end.
(** each field has its last value; a missing one has the zero value of its type *)
Definition from_fields (fs : list sfield) : wsegs :=
  WSegs (last_value (fun f => match f with FId s => Some s | _ => None end) ""%string fs)
        (last_value (fun f => match f with FSegs l => Some l | _ => None end) [] fs)
        (last_value (fun f => match f with FNext n => Some n | _ => None end) 0 fs)
        (last_value (fun f => match f with FIndex b => Some b | _ => None end) false fs).
