(** C41: collecting the errors of a fan-out. *)
From Verif.Lib Require Import Prelude ListAux.
From Verif.Model Require Import Small.
From Verif.Proof Require Import SmallP.
Open Scope nat_scope.

(** When waitErr has returned every worker is done; nil means no worker sent an error,
    an error result carries the number of errors sent and one of them, and the context
    error means the context was done.  [errs] lists what each worker sends. *)
Theorem C41_result : forall errs ctx n c o, wexec (wstart errs ctx) n c -> wc_col c = Returned o ->
  forallb w_done (wc_w c) = true /\
  match o with
  | ONil => concat errs = []
  | OErrs k e => k = length (concat errs) /\ In e (concat errs)
  | OCtx => wc_ctx c = true
  end.
Proof. exact c41_result. Qed.
Print Assumptions C41_result.

(** No deadlock: until it has returned some step other than a cancellation is possible. *)
Theorem C41_progress : forall errs ctx n c, wexec (wstart errs ctx) n c -> (forall o, wc_col c <> Returned o) ->
  exists c', wstep c c' /\ wc_ctx c' = wc_ctx c.
Proof. exact c41_progress. Qed.
Print Assumptions C41_progress.

(** No divergence: a bound on the number of steps. *)
Theorem C41_terminates : forall errs ctx n c, wexec (wstart errs ctx) n c -> n <= 4 + length errs + length (concat errs).
Proof.
  intros errs ctx n c E. pose proof (c41_terminates _ _ _ E) as H. unfold measure, wsum in H. cbn -[sum] in H.
  assert (S1 : sum (map weight (map (fun es => mkW es false) errs)) = length errs + length (concat errs)).
  { clear. induction errs as [|e errs IH]; [reflexivity|]. cbn [map concat length].
    assert (Sc : forall x l, sum (x :: l) = x + sum l) by reflexivity.
    rewrite Sc, IH, app_length. unfold weight. cbn. lia. }
  rewrite S1 in H. destruct ctx; lia.
Qed.
Print Assumptions C41_terminates.

(** Three workers sending 2, 0 and 1 errors. *)
Example C41_ex : exists c, wexec (wstart [[7; 8]; []; [9]] false) 8 c /\ wc_col c = Returned (OErrs 3 9).
Proof.
  eexists. split.
  - eapply We_step; [eapply (W_recv _ 2); reflexivity|]. cbn.
    eapply We_step; [eapply (W_done _ 2); reflexivity|]. cbn.
    eapply We_step; [eapply (W_recv _ 0); reflexivity|]. cbn.
    eapply We_step; [eapply (W_done _ 1); reflexivity|]. cbn.
    eapply We_step; [eapply (W_recv _ 0); reflexivity|]. cbn.
    eapply We_step; [eapply (W_done _ 0); reflexivity|]. cbn.
    eapply We_step; [eapply W_close; reflexivity|]. cbn.
    eapply We_step; [eapply W_end; reflexivity|]. apply We_nil.
  - reflexivity.
Qed.
Example C41_ex2 : exists c, wexec (wstart [[7]] false) 6 c /\ wc_col c = Returned OCtx.
Proof.
  eexists. split.
  - eapply We_step; [eapply W_cancel; reflexivity|]. cbn.
    eapply We_step; [eapply W_seectx; reflexivity|]. cbn.
    eapply We_step; [eapply (W_flush _ 0); reflexivity|]. cbn.
    eapply We_step; [eapply (W_done _ 0); reflexivity|]. cbn.
    eapply We_step; [eapply W_close; reflexivity|]. cbn.
    eapply We_step; [eapply W_endctx; reflexivity|]. apply We_nil.
  - reflexivity.
Qed.
