(** C23: stored records decode to what was encoded. *)
From Coq Require Import Strings.Byte Strings.String.
From Verif.Lib Require Import Prelude.
From Verif.Model Require Import Element Msgp Codec.
From Verif.Spec Require Import CodecSpec.
From Verif.Proof Require Import CodecP CodecR.
Open Scope N_scope.

Theorem C23_element : codec element_fits w_element r_element.
Proof. exact element_codec. Qed.
Print Assumptions C23_element.

Theorem C23_elements : codec elements_fit w_elements r_elements.
Proof. exact elements_codec. Qed.
Print Assumptions C23_elements.

Theorem C23_segment : codec segment_fits w_segment r_segment.
Proof. exact segment_codec. Qed.
Print Assumptions C23_segment.

Theorem C23_segments : codec segments_fit w_segments r_segments.
Proof. exact segments_codec. Qed.
Print Assumptions C23_segments.

(** a list descriptor whose metadata map is present *)
Theorem C23_list : codec (fun l => list_fits l /\ has_map l) w_list r_list.
Proof. exact list_codec. Qed.
Print Assumptions C23_list.

(** any list descriptor: the same but for the nil map, which becomes an empty map *)
Theorem C23_list_any : forall l rest, list_fits l -> r_list (w_list l ++ rest) = Some (with_map l, rest).
Proof. exact (fun l rest H => list_reads l H rest). Qed.
Print Assumptions C23_list_any.

(** a version number written is the version number read; 255 is the error value *)
Theorem C23_version : forall v rest, v < 255 -> r_version (w_version v ++ rest) = (v, rest).
Proof. exact version_reads. Qed.
Print Assumptions C23_version.

(** whatever the bytes: what decodes without error lies in the widths of the Go types, and each
    metadata key is there once *)
Theorem C23_in_range : forall b,
  (forall e r, r_element b = Some (e, r) -> element_fits e) /\ (forall l r, r_elements b = Some (l, r) -> elements_fit l) /\
  (forall s r, r_segment b = Some (s, r) -> segment_fits s) /\ (forall s r, r_segments b = Some (s, r) -> segments_fit s) /\
  (forall l r, r_list b = Some (l, r) -> list_fits l).
Proof. exact (fun b => conj (y_element b) (conj (y_elements b) (conj (y_segment b) (conj (y_segments b) (y_list b))))). Qed.
Print Assumptions C23_in_range.

(** a metadata key written several times has the last value; the other fields are as written *)
Theorem C23_repeated_key : forall l rest, short_str (wl_id l) -> short_str (wl_set l) -> short (meta_of (wl_meta l)) ->
  Forall (fun p => short_str (fst p) /\ short_str (snd p)) (meta_of (wl_meta l)) -> int64 (wl_split l) -> int64 (wl_merge l) ->
  short_str (wl_scores l) -> short_str (wl_index l) ->
  exists m, r_list (w_list l ++ rest) = Some (WList (wl_id l) (wl_set l) (Some m) (wl_split l) (wl_merge l) (wl_load l) (wl_scores l) (wl_index l), rest) /\
    NoDup (map fst m) /\ forall k, value_of k m = last_of k (meta_of (wl_meta l)).
Proof. exact list_repeated. Qed.
Print Assumptions C23_repeated_key.
(** the key "k" twice; a tie above 32 bits and a negative score are refused *)
Example C23_repeated_key_case :
  r_list (w_list (WList "a" "s" (Some [("k", "1"); ("j", "2"); ("k", "3")]%string) 10 5 false "x" "y")) =
  Some (WList "a" "s" (Some [("k", "3"); ("j", "2")]%string) 10 5 false "x" "y", []).
Proof. vm_compute. reflexivity. Qed.
Example C23_in_range_case : r_element (w_element (mkE 1 2 [] (2 ^ 32) 4)) = None /\
  r_element (w_element (mkE 1 2 [] (2 ^ 32 - 1) 4)) = Some (mkE 1 2 [] (2 ^ 32 - 1) 4, []) /\
  r_element [x95; xd0; xff; x02; xc4; x00; x03; x04] = None.
Proof. vm_compute. repeat split; reflexivity. Qed.

(** a record with another number of fields than its type has is refused, whatever follows *)
Theorem C23_fields : forall n b r, r_arr b = Some (n, r) ->
  (n <> 5 -> r_element b = None) /\ (n <> 8 -> r_segment b = None /\ r_list b = None).
Proof. exact wrong_count. Qed.
Print Assumptions C23_fields.
Example C23_fields_case : r_arr (Nb 0x97 :: skipn 1 (w_list (WList "a" "s" None 10 5 false "x" "y"))) = Some (7, skipn 1 (w_list (WList "a" "s" None 10 5 false "x" "y"))) /\
  r_list (Nb 0x97 :: skipn 1 (w_list (WList "a" "s" None 10 5 false "x" "y"))) = None.
Proof. vm_compute. split; reflexivity. Qed.

(** the fields of a segment collection may come in any order: a repeated one has its last value, a
    missing one the zero value *)
Theorem C23_any_fields : forall fs rest, short fs -> Forall sfield_fits fs ->
  r_segments (w_map (len32 fs) ++ flat_map sfield_bytes fs ++ rest) = Some (from_fields fs, rest).
Proof. exact any_fields. Qed.
Print Assumptions C23_any_fields.
Example C23_any_fields_case : from_fields [FNext 3; FId "a"; FNext 4] = WSegs "a" [] 4 false /\
  r_segments (w_map 3 ++ flat_map sfield_bytes [FNext 3; FId "a"; FNext 4] ++ [xc3]) = Some (WSegs "a" [] 4 false, [xc3]).
Proof. vm_compute. split; reflexivity. Qed.

(** "the same value for all field values" fails for the nil map *)
Theorem C23_nil_map_refuted : exists l, list_fits l /\ r_list (w_list l) <> Some (l, []).
Proof.
  exists (WList "a" "b" None 10 5 false "s" "i"). split; [|vm_compute; discriminate].
  repeat split; cbn; try reflexivity; try discriminate; try constructor.
Qed.
Print Assumptions C23_nil_map_refuted.

(** cases: widths at their limits, negative numbers, an empty payload, trailing bytes *)
Definition e_big : element := mkE (2 ^ 64 - 1) 200 [x61; xff] (2 ^ 32 - 1) 70000.
Example e_big_fits : element_fits e_big.
Proof. repeat split. Qed.
Example e_big_case : r_element (w_element e_big ++ [x01]) = Some (e_big, [x01]).
Proof. vm_compute. reflexivity. Qed.
Example e_small_case : w_element (mkE 1 2 [] 3 4) = [x95; x01; x02; xc4; x00; x03; x04].
Proof. reflexivity. Qed.
Definition s_neg : wseg := WSeg 7 0 (2 ^ 64 - 1) 0 (2 ^ 32 - 1) (-1) (- 2 ^ 63) "scores".
Example s_neg_fits : segments_fit (WSegs "id" [s_neg; s_neg] 9 true).
Proof. repeat split; cbn; try reflexivity; try discriminate. repeat constructor; cbn; try reflexivity; discriminate. Qed.
Example s_neg_case : r_segments (w_segments (WSegs "id" [s_neg; s_neg] 9 true)) = Some (WSegs "id" [s_neg; s_neg] 9 true, []).
Proof. vm_compute. reflexivity. Qed.
Definition l_meta : wlist := WList "list" "set" (Some [("country", "DK"); ("game", "1")]%string) 2000 500 true "s" "".
Example l_meta_fits : list_fits l_meta /\ has_map l_meta.
Proof.
  split; [|discriminate]. repeat split; cbn; try reflexivity; try discriminate; repeat constructor; cbn; intuition discriminate.
Qed.
Example l_meta_case : r_list (w_list l_meta ++ [xc3]) = Some (l_meta, [xc3]) /\ r_list (firstn 12 (w_list l_meta)) = None.
Proof. split; vm_compute; reflexivity. Qed.
Example elements_case : elements_fit [e_big; mkE 0 0 [] 0 0] /\ r_elements (w_elements [e_big; mkE 0 0 [] 0 0]) = Some ([e_big; mkE 0 0 [] 0 0], []).
Proof. split; [split; [reflexivity|repeat constructor]|vm_compute; reflexivity]. Qed.
