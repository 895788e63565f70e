(** C78: asking for the status of a backup job while it runs. *)
From Coq Require Import Strings.String Strings.Ascii Strings.Byte.
From Verif.Lib Require Import Prelude ListAux Bytes.
From Verif.Model Require Import Element Elements Segment List Msgp Codec Keys Storage Backup Job Asking.
From Verif.Spec Require Import RankSpec QuerySpec HistorySpec AnswerSpec CodecSpec StorageSpec BackupSpec JobSpec AskingSpec.
From Verif.Proof Require Import BackupP JobP AskingP.
From Verif.Thm Require Import Sample SampleStore C46 C60.
Open Scope nat_scope.

(** An answer has the status of one moment of the job, except that its Errors may have some of
    the errors that came after it. *)
Theorem C78_answer : forall ids ch m tr c t, wexec any_ask ids ch m tr c -> In (QAnswered t) (w_req c) ->
  exists tr1 tr2 j1 n, tr = tr1 ++ tr2 /\ jexec any_choice ids ch m tr1 j1 /\ jgoes ids ch j1 n tr2 (w_job c) /\ same_but_errors t (j_st j1) /\
    incl (t_errs (j_st j1)) (t_errs t) /\ incl (t_errs t) (t_errs (j_st (w_job c))).
Proof. exact c78_answer. Qed.
Print Assumptions C78_answer.
(** An answer with Done is the final status. *)
Theorem C78_final : forall ids ch m tr c t, wexec any_ask ids ch m tr c -> In (QAnswered t) (w_req c) -> t_done t = true ->
  over (w_job c) /\ same_but_errors t (j_st (w_job c)) /\ same_set (t_errs t) (t_errs (j_st (w_job c))).
Proof. exact c78_final. Qed.
Print Assumptions C78_final.
(** Requests can end the process only when the job writes to Errors while an answer is being
    encoded; a job without errors is safe. *)
Theorem C78_dies : forall ids ch c x e c', wfire ids ch c x = Some (e, c') -> w_dead c' = true ->
  (exists t from, In (QIter t from) (w_req c)) /\ exists y, x = W_job y true /\ writes ch (w_job c) y = true.
Proof. exact c78_dies. Qed.
Print Assumptions C78_dies.
(** [writes] is right: a step that writes sets one key, any other leaves Errors alone. *)
Theorem C78_writes : forall ids ch c y e c', jfire ids ch c y = Some (e, c') ->
  if writes ch c y then exists k, forall k', In k' (t_errs (j_st c')) <-> k' = k \/ In k' (t_errs (j_st c)) else t_errs (j_st c') = t_errs (j_st c).
Proof. exact c78_writes. Qed.
Print Assumptions C78_writes.
Theorem C78_quiet : forall ids ch m tr c, (forall id, In id ids -> m id <> None) -> wexec (no_errors ids) ids ch m tr c ->
  w_dead c = false /\ t_errs (j_st (w_job c)) = [].
Proof. exact c78_quiet. Qed.
Print Assumptions C78_quiet.

(** ** Runs *)
Definition jb (x : jchoice) : wchoice := W_job x false.
Definition wg : wchoice := W_job g false.
Definition told (x : list jevent * wcfg) := (w_dead (snd x), w_req (snd x), t_done (j_st (w_job (snd x))), t_errs (j_st (w_job (snd x))), t_success (j_st (w_job (snd x)))).
(** two requests during a job; the first sees an error that came after its copy was taken: no
    list done, and a later error *)
Example C78_run : option_map told (wplay ids1 false (wstart src0)
    [wg; W_come; W_copy 0; W_iter 0; wg; wg; wg; wg; wg; W_answer 0 ["nobody"%string]; wg; wg; wg; wg; jb (J_flow 1000); wg; W_come; wg; wg; W_copy 1; W_iter 1; W_answer 1 ["nobody"%string]]) =
  Some (false, [QAnswered (mkSt false ["nobody"] 0 [] false); QAnswered (mkSt true ["nobody"] 2 ["players"; "teams"] false)], true, ["nobody"], ["players"; "teams"])%string.
Proof. vm_compute. reflexivity. Qed.
Lemma any_asks l : Forall any_ask l.
Proof. induction l; constructor; auto. exact Logic.I. Qed.
Example C78_holds : exists tr c t, wexec any_ask ids1 false src0 tr c /\ In (QAnswered t) (w_req c) /\ t_done t = true /\ over (w_job c) /\ t_success t = ["players"; "teams"]%string.
Proof.
  destruct (wplay_see _ _ _ _ _ _ C78_run) as (tr & c & Ep & Es). unfold told in Es. cbn [snd] in Es. injection Es as E1 E2 E3 E4 E5.
  assert (X : wexec any_ask ids1 false src0 tr c) by (eapply wplay_exec with (tr0 := []); [apply any_asks|constructor|exact Ep]).
  assert (I2 : In (QAnswered (mkSt true ["nobody"] 2 ["players"; "teams"] false)%string) (w_req c)) by (rewrite E2; right; left; reflexivity).
  exists tr, c, (mkSt true ["nobody"] 2 ["players"; "teams"] false)%string. split; [exact X|]. split; [exact I2|]. split; [reflexivity|].
  split; [|reflexivity]. exact (proj1 (C78_final _ _ _ _ _ _ X I2 eq_refl)).
Qed.
Example C78_quiet_run : option_map told (wplay ids0 false (wstart src0)
    [wg; W_come; W_copy 0; W_iter 0; wg; wg; wg; wg; W_answer 0 []; wg; wg; wg; wg; jb (J_flow 1000); wg; wg]) =
  Some (false, [QAnswered (mkSt false [] 0 [] false)], true, [], ["players"; "teams"])%string.
Proof. vm_compute. reflexivity. Qed.

(** ** The process can end *)

(** A request for the status of a job, of lists of which one does not exist, can end the server
    and the job with it, though nothing fails: the lists that exist are not backed up. *)
Theorem C78_dies_refuted : exists ids m tr c x e c', NoDup ids /\ sound_db m /\ wexec any_ask ids false m tr c /\ wfire ids false c x = Some (e, c') /\
  w_dead c' = true /\ (forall y, wfire ids false c' y = None) /\ j_bad (w_job c') = false /\ j_cut (w_job c') = false /\
  exists id, In id ids /\ m id <> None /\ ~ In id (t_success (j_st (w_job c'))).
Proof.
  assert (R : option_map (fun x => (told x, existsb iterates (w_req (snd x)), j_pc (w_job (snd x)))) (wplay ids1 false (wstart src0) [wg; wg; W_come; W_copy 0; W_iter 0]) =
    Some (false, [QIter (mkSt false [] 0 [] false) []], false, [], [], true, JFind "nobody" ["players"; "teams"])%string) by (vm_compute; reflexivity).
  destruct (wplay ids1 false (wstart src0) [wg; wg; W_come; W_copy 0; W_iter 0]) as [[tr c]|] eqn:Ep; [|discriminate]. clear R.
  destruct (wfire ids1 false c (W_job g true)) as [[e c']|] eqn:Ef; [|vm_compute in Ep; injection Ep as <- <-; vm_compute in Ef; discriminate].
  exists ids1, src0, tr, c, (W_job g true), e, c'.
  split; [repeat constructor; cbn; intuition discriminate|]. split; [exact src0_sound|].
  split; [apply wplay_exec with (l := [wg; wg; W_come; W_copy 0; W_iter 0]) (tr0 := []) (c := wstart src0); [apply any_asks|constructor|exact Ep]|].
  split; [exact Ef|]. vm_compute in Ep. injection Ep as <- <-. vm_compute in Ef. injection Ef as <- <-. split; [reflexivity|]. split; [reflexivity|].
  split; [reflexivity|]. split; [reflexivity|]. exists "players"%string. split; [right; left; reflexivity|]. split; [discriminate|]. intros [].
Qed.
Print Assumptions C78_dies_refuted.
