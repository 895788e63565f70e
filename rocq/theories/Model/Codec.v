(** Model of the generated codecs: /repo/element_gen.go, elements_gen.go, segment_gen.go,
    segments_gen.go, list_gen.go, and of the version byte, msgppool.go.
    EncodeMsg and MarshalMsg of a type write the same bytes, DecodeMsg and UnmarshalMsg read
    the same, so each type has one writer and one reader here.  Decoding is into a fresh value. *)
From Coq Require Import Strings.Byte Strings.String.
From Verif.Lib Require Import Prelude.
From Verif.Model Require Import Element Msgp.
Open Scope N_scope.

(** msgppool.go:43-48 SetVersion (255 is refused); WriteByte writes a uint8 *)
Definition w_version (v : N) : wire := w_uint v.
(** msgppool.go:107-113 GetVersion, 116-122 MsgpGetVersion: 255 on error *)
Definition r_version (b : wire) : N * wire :=
  match r_uint 8 b with Some (v, r) => (v, r) | None => (255, b) end.

(** element_gen.go:10-86 *)
Definition w_element (e : element) : wire :=
  Nb 0x95 :: w_uint (e_score e) ++ w_uint (e_id e) ++ w_bin (e_payload e) ++ w_uint (e_tie e) ++ w_uint (e_upd e).
Definition r_element : reader element :=
  n <- r_arr ;; check (n =? 5)
  (score <- r_uint 64 ;; id <- r_uint 64 ;; payload <- r_bin ;; tie <- r_uint 32 ;; upd <- r_uint 32 ;;
   ret (mkE score id payload tie upd)).

(** elements_gen.go, Elements *)
Definition w_elements (l : list element) : wire := w_arr (len32 l) ++ flat_map w_element l.
Definition r_elements : reader (list element) := n <- r_arr ;; times (N.to_nat n) r_element.

(** segment.go:31-40, the stored fields *)
Record wseg := WSeg {
  w_id : N; w_min : N; w_max : N; w_mintie : N; w_maxtie : N; w_n : Z; w_upd : Z; w_parent : string }.
(** segment_gen.go:10-118 *)
Definition w_segment (s : wseg) : wire :=
  Nb 0x98 :: w_uint (w_id s) ++ w_uint (w_min s) ++ w_uint (w_max s) ++ w_uint (w_mintie s) ++ w_uint (w_maxtie s) ++
  w_int (w_n s) ++ w_int (w_upd s) ++ w_str (w_parent s).
Definition r_segment : reader wseg :=
  n <- r_arr ;; check (n =? 8)
  (id <- r_uint 32 ;; mn <- r_uint 64 ;; mx <- r_uint 64 ;; mnt <- r_uint 32 ;; mxt <- r_uint 32 ;;
   num <- r_int ;; upd <- r_int ;; parent <- r_str ;; ret (WSeg id mn mx mnt mxt num upd parent)).

(** segments.go:37-48, the stored fields *)
Record wsegs := WSegs { ws_id : string; ws_segs : list wseg; ws_next : N; ws_index : bool }.
Definition w_key (s : string) : wire := Nb (0xa0 + N.of_nat (String.length s)) :: list_byte_of_string s.
(** segments_gen.go:76-122 *)
Definition w_segments (s : wsegs) : wire :=
  Nb 0x84 :: w_key "ID" ++ w_str (ws_id s) ++
  w_key "Segments" ++ w_arr (len32 (ws_segs s)) ++ flat_map w_segment (ws_segs s) ++
  w_key "NextID" ++ w_uint (ws_next s) ++ w_key "IsIndex" ++ w_bool (ws_index s).
(** segments_gen.go:10-73: one field.  Simplification: a field of another name is an error here,
    the code skips it. *)
Definition r_field (z : wsegs) : reader wsegs :=
  f <- r_str ;;
  if String.eqb f "ID" then v <- r_str ;; ret (WSegs v (ws_segs z) (ws_next z) (ws_index z))
  else if String.eqb f "Segments" then
    n <- r_arr ;; v <- times (N.to_nat n) r_segment ;; ret (WSegs (ws_id z) v (ws_next z) (ws_index z))
  else if String.eqb f "NextID" then v <- r_uint 32 ;; ret (WSegs (ws_id z) (ws_segs z) v (ws_index z))
  else if String.eqb f "IsIndex" then v <- r_bool ;; ret (WSegs (ws_id z) (ws_segs z) (ws_next z) v)
  else fail.
Fixpoint r_fields (n : nat) (z : wsegs) : reader wsegs :=
  match n with O => ret z | S n => z <- r_field z ;; r_fields n z end.
Definition r_segments : reader wsegs := n <- r_map ;; r_fields (N.to_nat n) (WSegs "" [] 0 false).

(** list.go:30-44, the stored fields.  [None] = nil map *)
Record wlist := WList {
  wl_id : string; wl_set : string; wl_meta : option (list (string * string));
  wl_split : Z; wl_merge : Z; wl_load : bool; wl_scores : string; wl_index : string }.
Definition meta_of (m : option (list (string * string))) : list (string * string) :=
  match m with Some m => m | None => [] end.
(** list_gen.go:86-143 *)
Definition w_list (l : wlist) : wire :=
  Nb 0x98 :: w_str (wl_id l) ++ w_str (wl_set l) ++
  w_map (len32 (meta_of (wl_meta l))) ++ flat_map (fun p => w_str (fst p) ++ w_str (snd p)) (meta_of (wl_meta l)) ++
  w_int (wl_split l) ++ w_int (wl_merge l) ++ w_bool (wl_load l) ++ w_str (wl_scores l) ++ w_str (wl_index l).
(** z.Metadata[k] = v *)
Fixpoint put_meta (k v : string) (m : list (string * string)) : list (string * string) :=
  match m with
  | [] => [(k, v)]
  | (a, b) :: r => if String.eqb a k then (k, v) :: r else (a, b) :: put_meta k v r
  end.
Definition r_pair : reader (string * string) := k <- r_str ;; v <- r_str ;; ret (k, v).
(** list_gen.go:10-83: a nil map becomes an empty map *)
Definition r_list : reader wlist :=
  n <- r_arr ;; check (n =? 8)
  (id <- r_str ;; set <- r_str ;; k <- r_map ;; ps <- times (N.to_nat k) r_pair ;;
   split <- r_int ;; merge <- r_int ;; load <- r_bool ;; scores <- r_str ;; index <- r_str ;;
   ret (WList id set (Some (fold_left (fun m p => put_meta (fst p) (snd p) m) ps [])) split merge load scores index)).
