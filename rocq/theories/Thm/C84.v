(** C84: recycled encoders. *)
From Verif.Lib Require Import Prelude ListAux.
From Verif.Model Require Import Encoder.
From Verif.Spec Require Import EncoderSpec.
From Verif.Proof Require Import EncoderP EncoderP2.
Open Scope nat_scope.

(** Whatever encoders the pool gives out and however saves overlap, fail and are retried: what the
    store takes in the Set of a call is what this call encoded. *)
Theorem C84_blob : forall c i b, encs proper c -> In (i, b) (s_log c) ->
  exists x, nth_error (s_calls c) i = Some x /\ is_blob (c_job x) = true /\ b = content (c_job x).
Proof. exact c84_blob. Qed.
Print Assumptions C84_blob.

(** A list file gets what its call encoded, in order, and all of it if the call ended well; nothing
    of a blob gets into a file. *)
Theorem C84_file : forall c i x, encs proper c -> nth_error (s_calls c) i = Some x ->
  prefix (s_file c i) (content (c_job x)) /\ (is_blob (c_job x) = true -> s_file c i = []) /\
  (is_blob (c_job x) = false -> has_ended x true -> s_file c i = content (c_job x)).
Proof. exact c84_file. Qed.
Print Assumptions C84_file.

(** An encoder has one user, or is in the pool, once. *)
Theorem C84_one : forall c, encs proper c -> NoDup (s_pool c) /\
  (forall i x a, nth_error (s_calls c) i = Some x -> uses x = Some a -> ~ In a (s_pool c)) /\
  (forall i j x y a, nth_error (s_calls c) i = Some x -> nth_error (s_calls c) j = Some y -> uses x = Some a -> uses y = Some a -> i = j).
Proof. exact c84_one. Qed.
Print Assumptions C84_one.

(** No encoder writes to the nil writer that Close leaves it with. *)
Theorem C84_no_panic : forall c, encs proper c -> s_bad c = false.
Proof. exact c84_no_panic. Qed.
Print Assumptions C84_no_panic.

(** A save waits for no other: by its own steps alone each gets to its end. *)
Theorem C84_ends : forall c i x, encs proper c -> nth_error (s_calls c) i = Some x ->
  exists l c' y ok, Forall (of_save i) l /\ eplay c l = Some c' /\ nth_error (s_calls c') i = Some y /\ has_ended y ok.
Proof. exact c84_ends. Qed.
Print Assumptions C84_ends.

(** ** What the claims need *)
Lemma play_encs (ok : echoice -> Prop) : forall l c c', encs ok c -> Forall ok l -> eplay c l = Some c' -> encs ok c'.
Proof.
  induction l as [|x l IH]; intros c c' H HF E; cbn [eplay] in E; [injection E as <-; exact H|]. inversion HF; subst.
  destruct (estep c x) as [c1|] eqn:E1; [|discriminate]. apply (IH c1); [eapply encs_step; eassumption|assumption|exact E].
Qed.
Definition played (l : list echoice) : scfg := match eplay sstart l with Some c => c | None => sstart end.
Lemma played_encs (ok : echoice -> Prop) l : Forall ok l -> (exists c, eplay sstart l = Some c) -> encs ok (played l).
Proof. intros HF (c & E). unfold played. rewrite E. exact (play_encs ok l _ _ (encs_start ok) HF E). Qed.
Ltac play := apply played_encs; [repeat constructor|eexists; vm_compute; reflexivity].

Definition save1 : list echoice :=
  [X_call (JBlob [[1]; [2; 3]])%N; X_take 0 None 4; X_write 0; X_spill 0 0; X_write 0; X_flush 0 0; X_store 0; X_ret 0 true; X_close 0].
(** a store that keeps the slice and writes it later writes another call's bytes *)
Definition late : list echoice := save1 ++ [X_call (JBlob [[7; 8; 9]])%N; X_take 1 (Some 0) 0; X_write 1; X_flush 1 0; X_late 0].
Theorem C84_late_refuted : exists c i b x, encs once c /\ In (i, b) (s_log c) /\ nth_error (s_calls c) i = Some x /\ has_ended x true /\ b <> content (c_job x).
Proof.
  exists (played late), 0, [7; 8; 9]%N. eexists. split; [play|]. split; [vm_compute; left; reflexivity|]. split; [vm_compute; reflexivity|]. split; [reflexivity|vm_compute; discriminate].
Qed.
Print Assumptions C84_late_refuted.

(** a second Close: two calls get one encoder, one stores the bytes of the other, and one that encodes after the other has
    closed writes to a nil writer *)
Definition twice : list echoice := save1 ++ [X_again 0 0; X_call (JBlob [[7]; [8; 9]])%N; X_call (JBlob [[4; 5]])%N;
  X_take 1 (Some 0) 0; X_write 1; X_take 2 (Some 0) 0; X_write 2; X_write 1; X_flush 2 0; X_store 2; X_ret 2 true; X_close 2].
Theorem C84_again_refuted : exists c i b x c' x', encs no_late c /\ In (i, b) (s_log c) /\ nth_error (s_calls c) i = Some x /\ b <> content (c_job x) /\
  estep c x' = Some c' /\ no_late x' /\ s_bad c' = true.
Proof.
  exists (played twice), 2, [4; 5; 8; 9]%N. eexists _, _, (X_flush 1 0). split; [play|]. split; [vm_compute; left; reflexivity|].
  split; [vm_compute; reflexivity|]. split; [vm_compute; discriminate|]. split; [vm_compute; reflexivity|]. split; [exact Logic.I|reflexivity].
Qed.
Print Assumptions C84_again_refuted.

(** ** Runs of the theorems *)
(** three saves that overlap, one of them of the list file, one that fails half way; the array of the first is reused and outgrown *)
Definition mixed : list echoice := save1 ++
  [X_call (JBlob [[7]; [7; 7; 7; 7; 7]])%N; X_call (JFile [[5]; [6]])%N; X_call (JBlob [[9]])%N;
   X_take 1 (Some 0) 0; X_take 2 None 2; X_write 1; X_write 2; X_spill 2 0; X_write 1; X_take 3 None 1; X_flush 1 3; X_write 2; X_write 3; X_fail 3;
   X_store 1; X_close 3; X_store 1; X_flush 2 0; X_ret 1 true; X_close 2; X_close 1].
Example C84_mixed_runs : encs proper (played mixed).
Proof. play. Qed.
Example C84_mixed_log : rev (s_log (played mixed)) = [(0, [1; 2; 3]%N); (1, [7; 7; 7; 7; 7; 7]%N); (1, [7; 7; 7; 7; 7; 7]%N)].
Proof. vm_compute. reflexivity. Qed.
Example C84_mixed_file : s_file (played mixed) 2 = [5; 6]%N /\ s_file (played mixed) 3 = [] /\ s_pool (played mixed) = [0; 1; 2].
Proof. vm_compute. repeat split; reflexivity. Qed.
(** the encoder of the save that failed still held a byte back; its next user does not get it *)
Definition reused : list echoice := mixed ++ [X_call (JBlob [[2]])%N; X_take 4 (Some 2) 0; X_write 4; X_flush 4 0; X_store 4].
Example C84_reused : encs proper (played reused) /\ hd_error (s_log (played reused)) = Some (4, [2]%N).
Proof. split; [play|vm_compute; reflexivity]. Qed.
