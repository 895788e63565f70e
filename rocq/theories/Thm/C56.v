(** C56: one cross-list request works on its lists in parallel. *)
From Coq Require Import Strings.String Strings.Ascii.
From Verif.Lib Require Import Prelude ListAux Bytes.
From Verif.Model Require Import Element Elements Segment List Access Api Server Fanout.
From Verif.Spec Require Import FanoutSpec.
From Verif.Proof Require Import FanoutP FanoutSeq.
Open Scope nat_scope.

(** Whatever the order of the steps: when onEveryList returns a result, the function has been
    applied to each list exactly once, each list has exactly its own entry in Success or Errors,
    no other list was touched, and no goroutine is left. *)
Theorem C56_result : forall L R E (c : fcfg L R E) ids ls gs s, NoDup ids ->
  frun c gs (finit c ids ls) = Some s -> f_main s = M_ret true ->
  complete (c_fn c) ls ids s /\ (forall p, In p (f_work s) -> snd p = W_gone).
Proof. exact (fun L R E c ids ls gs s N => f_result L R E c ids ls N gs s). Qed.
Print Assumptions C56_result.

(** Never more than [limit] goroutines work at a time. *)
Theorem C56_limit : forall L R E (c : fcfg L R E) ids ls gs s, NoDup ids ->
  frun c gs (finit c ids ls) = Some s -> c_limit c <> 0 ->
  length (filter working (f_work s)) <= c_limit c.
Proof. exact (fun L R E c ids ls gs s N => f_limit L R E c ids ls N gs s). Qed.
Print Assumptions C56_limit.

(** No order of the steps blocks: until the call has returned and all goroutines have ended
    there is a next step, *)
Theorem C56_progress : forall L R E (c : fcfg L R E) ids ls gs s, NoDup ids ->
  frun c gs (finit c ids ls) = Some s ->
  ((exists b, f_main s = M_ret b) /\ (forall p, In p (f_work s) -> snd p = W_gone)) \/
  exists g s', g <> G_cancel /\ fstep c g s = Some s'.
Proof. exact (fun L R E c ids ls gs s N => f_progress L R E c ids ls N gs s). Qed.
Print Assumptions C56_progress.

(** and the number of steps is bounded, so every execution ends. *)
Theorem C56_ends : forall L R E (c : fcfg L R E) ids ls gs s,
  frun c gs (finit c ids ls) = Some s -> length gs <= 6 * length ids + 3.
Proof. exact f_bound. Qed.
Print Assumptions C56_ends.

(** It returns without a result only if the context was cancelled. *)
Theorem C56_nil : forall L R E (c : fcfg L R E) ids ls gs s, NoDup ids ->
  frun c gs (finit c ids ls) = Some s -> f_main s = M_ret false -> f_cancelled s = true.
Proof. exact (fun L R E c ids ls gs s N => f_cancel L R E c ids ls N gs s). Qed.
Print Assumptions C56_nil.

(** So every execution agrees with the handlers of Model/Server.v, which take one list after the
    other (C54). *)
Theorem C56_sequential : forall f limit ids d d' rs gs s, NoDup ids -> every_list f d ids = Done (d', rs) ->
  frun (FC limit (as_fn f)) gs (finit (FC limit (as_fn f)) ids (dget d)) = Some s -> f_main s = M_ret true ->
  (forall id, f_lists s id = dget d' id) /\ map fst rs = ids /\ (forall id m, In (id, m) rs -> answered s id m).
Proof. exact f_sequential. Qed.
Print Assumptions C56_sequential.

(** Three lists, one of which does not exist and one of which makes the function panic; limit 2.
    The second goroutine overtakes the first. *)
Definition ids3 : list bytes := map list_ascii_of_string ["a"; "b"; "c"]%string.
Definition id3 (k : nat) : bytes := nth k ids3 [].
Definition ls3 (id : bytes) : option nat := if beq id (id3 1) then None else Some 10.
Definition c3 : fcfg nat nat nat := FC 2 (fun id l => if beq id (id3 2) then (l + 5, F_panic 7) else (l + 1, F_ok l)).
Definition order3 : list label :=
  [G_main; G_main; G_main; G_main; G_work 1; G_work 0; G_work 1; G_main; G_work 1; G_main; G_work 1; G_work 2; G_main;
   G_work 2; G_work 0; G_work 0; G_work 0; G_work 2; G_work 2; G_main].
Example C56_ex : NoDup ids3 /\ exists s, frun c3 order3 (finit c3 ids3 ls3) = Some s /\ f_main s = M_ret true /\
  map (f_lists s) ids3 = [Some 11; None; Some 15] /\ map (f_ok s) ids3 = [Some 10; None; None] /\
  map (f_er s) ids3 = [None; Some X_missing; Some (X_panic 7)].
Proof.
  split; [repeat constructor; cbn; intuition discriminate|].
  eexists. split; [vm_compute; reflexivity|]. vm_compute. repeat split; reflexivity.
Qed.
(** the third list has to wait for a token *)
Example C56_waits : exists s, frun c3 [G_main; G_main; G_main; G_main; G_main] (finit c3 ids3 ls3) = Some s /\ fstep c3 G_main s = None.
Proof. eexists. split; [vm_compute; reflexivity|reflexivity]. Qed.

(** A cancelled request does not leave the lists alone, nor does it say what it did: the call
    returns nothing, one list is changed, a goroutine goes on to change another list after the
    return, and with errors_only the handler dereferences nil. *)
Theorem C56_cancel_refuted : exists (c : fcfg nat nat nat) ids ls gs s g s', NoDup ids /\
  frun c gs (finit c ids ls) = Some s /\ f_main s = M_ret false /\
  (exists id, f_lists s id <> ls id) /\ answer true false s = None /\
  fstep c g s = Some s' /\ exists id, f_lists s' id <> f_lists s id.
Proof.
  exists (FC 2 (fun _ l => (l + 1, F_ok l))), ids3, (fun _ => Some 10),
    [G_main; G_main; G_work 0; G_main; G_main; G_cancel; G_main].
  eexists _, (G_work 1), _. split; [repeat constructor; cbn; intuition discriminate|].
  split; [vm_compute; reflexivity|]. split; [reflexivity|].
  split; [exists (id3 0); vm_compute; discriminate|]. split; [reflexivity|].
  split; [reflexivity|]. exists (id3 1). vm_compute. discriminate.
Qed.
Print Assumptions C56_cancel_refuted.
