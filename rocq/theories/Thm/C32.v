(** C32: the master list file round-trips and load replaces everything. *)
From Coq Require Import Strings.Byte Strings.String.
From Verif.Lib Require Import Prelude.
From Verif.Model Require Import Msgp Codec Manager.
From Verif.Spec Require Import CodecSpec ManagerSpec.
From Verif.Proof Require Import ManagerP.
Open Scope N_scope.

(** whatever was in memory, loading a saved file gives the lists saved and no others *)
Theorem C32_round_trip : forall enc zdec fdec ls old, compressor enc zdec -> collection ls ->
  exists m, load zdec fdec old (save enc ls) = (None, m) /\ same_lists ls m.
Proof. exact round_trip. Qed.
Print Assumptions C32_round_trip.

(** so does an old file, which is a flate stream without a first byte for the kind; the low bits of
    a flate stream are never those of [comp_base] (block type 3 is reserved) *)
Theorem C32_old_file : forall zdec fdec ls old c b, collection ls -> N.land (bN c) comp_base <> comp_base ->
  fdec (c :: b) = w_version list_version ++ flat_map w_list ls ++ w_bool true ->
  exists m, load zdec fdec old (c :: b) = (None, m) /\ same_lists ls m.
Proof. exact load_flate. Qed.
Print Assumptions C32_old_file.

(** whatever the file holds, afterwards each ID is there once *)
Theorem C32_each_once : forall zdec fdec old b e m, NoDup (map wl_id old) ->
  load zdec fdec old b = (e, m) -> NoDup (map wl_id m).
Proof. exact load_each_once. Qed.
Print Assumptions C32_each_once.

(** a file cut short is an error, unless the decompressor could still deliver every list; after
    an error memory holds the old lists or some of the lists of the file, never a mixture *)
Theorem C32_cut_short : forall enc zdec fdec ls old b c, compressor enc zdec -> collection ls ->
  save enc ls = b ++ c -> c <> [] ->
  (exists m, load zdec fdec old b = (None, m) /\ same_lists ls m) \/
  (exists e m, load zdec fdec old b = (Some e, m) /\ (m = old \/ exists k, same_lists (firstn k ls) m)).
Proof. exact cut_short. Qed.
Print Assumptions C32_cut_short.

(** a file that is not compressed and is cut short is always an error *)
Theorem C32_cut_short_plain : forall zdec fdec ls old b c, Forall list_fits ls ->
  Nb comp_none :: w_version list_version ++ flat_map w_list ls ++ w_bool true = b ++ c -> c <> [] ->
  exists e m, load zdec fdec old b = (Some e, m).
Proof. exact plain_cut. Qed.
Print Assumptions C32_cut_short_plain.

(** cases *)
Definition la : wlist := WList "a" "s" (Some [("k", "v")]%string) 2000 500 false "sa" "ia".
Definition lb : wlist := WList "b" "s" None 10 5 true "sb" "".
Lemma plain : compressor (fun x => x) (fun x => x).
Proof. split; [reflexivity|]. intros x b c E. exists c. exact E. Qed.
Example two_lists : collection [la; lb].
Proof.
  split; [|repeat constructor; cbn; intuition discriminate].
  repeat constructor; cbn; try reflexivity; try discriminate; intuition discriminate.
Qed.
Example loaded : load (fun x => x) (fun x => x) [lb] (save (fun x => x) [la; lb]) = (None, [with_map lb; la]).
Proof. vm_compute. reflexivity. Qed.
(** a flate stream with one stored block starts with 1 *)
Definition stored_block (b : wire) : wire := skipn 5 b.
Example old_file : load (fun _ => []) stored_block [lb] (x01 :: [x00; x00; xff; xff] ++ w_version list_version ++ flat_map w_list [la; lb] ++ w_bool true) =
  (None, [with_map lb; la]).
Proof. vm_compute. reflexivity. Qed.
(** the error leaves only the first list *)
Theorem C32_error_keeps_lists_refuted : exists ls old b c m, collection ls /\ collection old /\
  save (fun x => x) ls = b ++ c /\ load (fun x => x) (fun x => x) old b = (Some EDecode, m) /\ m <> old.
Proof.
  exists [la; lb], [la; lb], (firstn 25 (save (fun x => x) [la; lb])), (skipn 25 (save (fun x => x) [la; lb])). eexists.
  split; [exact two_lists|]. split; [exact two_lists|]. split; [symmetry; apply firstn_skipn|]. split; [vm_compute; reflexivity|]. discriminate.
Qed.
Print Assumptions C32_error_keeps_lists_refuted.
Example empty_blob : load (fun x => x) (fun x => x) [la] [] = (Some EEmpty, [la]).
Proof. reflexivity. Qed.
Example other_version : load (fun x => x) (fun x => x) [la] [Nb comp_none; x02; xc3] = (Some EVersion, [la]).
Proof. reflexivity. Qed.
