(** C88: recycled decoders. *)
From Verif.Lib Require Import Prelude ListAux.
From Verif.Model Require Import Decoder.
From Verif.Spec Require Import DecoderSpec.
From Verif.Proof Require Import DecoderP.
Open Scope nat_scope.

(** a call reads the first bytes of what it was given, as many as it asked for *)
Theorem C88_bytes : forall l s i src cl, runs l s -> Forall once l -> In (D_call i src cl) l ->
  exists c, ds_calls s i = Some c /\ dc_got c = firstn (list_sum (map (asked i) l)) src.
Proof. exact c88_got. Qed.
Print Assumptions C88_bytes.

(** and can read on to its end, whatever others do with theirs *)
Theorem C88_all : forall l s i src cl c a, runs l s -> Forall once l -> In (D_call i src cl) l -> ds_calls s i = Some c -> dc_pc c = DRead a ->
  exists l2 s2 c2, runs (l ++ l2) s2 /\ Forall (reads_of i) l2 /\ ds_calls s2 i = Some c2 /\ dc_got c2 = src.
Proof. exact c88_can. Qed.
Print Assumptions C88_all.

(** a decoder has one user *)
Theorem C88_one : forall l s i j c d a, runs l s -> Forall once l -> ds_calls s i = Some c -> ds_calls s j = Some d ->
  dc_pc c = DRead a -> dc_pc d = DRead a -> i = j.
Proof. exact c88_one. Qed.
Print Assumptions C88_one.

(** nobody reads from a decoder that was closed *)
Theorem C88_no_panic : forall l s, runs l s -> Forall once l -> ds_bad s = false.
Proof. exact c88_ok. Qed.
Print Assumptions C88_no_panic.

(** if one call closed its decoder twice, two others could read each other's bytes *)
Definition again : list dchoice :=
  [D_call 0 [1; 2]%N true; D_take 0 None; D_fill 0 2; D_read 0 2; D_end 0; D_again 0;
   D_call 1 [3; 4]%N true; D_call 2 [5; 6]%N true; D_take 1 (Some 0); D_take 2 (Some 0); D_fill 1 1; D_read 1 1].
Theorem C88_again_refuted : exists s c, runs again s /\ In (D_call 1 [3; 4]%N true) again /\ ds_calls s 1 = Some c /\
  dc_got c <> firstn (list_sum (map (asked 1) again)) [3; 4]%N /\ exists l s', dplay s l = Some s' /\ Forall once l /\ ds_bad s' = true.
Proof.
  set (more := [D_end 2; D_fill 1 1]).
  assert (E : match dplay dstart again with
              | Some s => match ds_calls s 1, dplay s more with Some c, Some s' => (dc_got c, ds_bad s') | _, _ => ([], false) end
              | None => ([], false) end = ([5]%N, true)) by (vm_compute; reflexivity).
  unfold runs. destruct (dplay dstart again) as [s|]; [|discriminate E]. destruct (ds_calls s 1) as [c|] eqn:Ec; [|discriminate E].
  destruct (dplay s more) as [s'|] eqn:Em; [|discriminate E]. injection E as E1 E2. exists s, c. split; [reflexivity|]. split; [cbn; auto 10|]. split; [exact Ec|].
  split; [rewrite E1; vm_compute; discriminate|]. exists more, s'. split; [exact Em|]. split; [repeat constructor|exact E2].
Qed.
Print Assumptions C88_again_refuted.

(** ** Cases: a list file and a backup, with two lists in it, are read at the same time; one call fails half way, its decoder is
    used again while it still held something *)
Definition some_reads : list dchoice :=
  [D_call 0 [1; 2; 3; 4]%N true; D_call 1 [9; 8; 7]%N true; D_take 0 None; D_take 1 None; D_fill 0 3; D_read 0 1; D_fill 1 1; D_read 0 1; D_end 0;
   D_call 2 [5; 5; 6]%N false; D_take 2 (Some 0); D_fill 2 5; D_read 1 1; D_read 2 2; D_fill 1 1; D_read 1 1; D_read 2 1; D_end 2;
   D_call 3 [4; 4]%N false; D_take 3 None; D_fill 3 1; D_end 1; D_gc 0; D_read 3 1].
Example C88_run : option_map (fun s => (map (fun i => option_map dc_got (ds_calls s i)) [0; 1; 2; 3; 4], ds_pool s)) (dplay dstart some_reads) =
  Some ([Some [1; 2]; Some [9; 8]; Some [5; 5; 6]; Some [4]; None]%N, []).
Proof. vm_compute. reflexivity. Qed.
Example C88_run_once : Forall once some_reads.
Proof. repeat constructor. Qed.
(** a decoder gives out no more than it holds *)
Example C88_short : dplay dstart [D_call 0 [1; 2]%N true; D_take 0 None; D_fill 0 1; D_read 0 2] = None.
Proof. reflexivity. Qed.
