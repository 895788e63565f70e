(** What the limit on updates and an orderly shutdown promise. *)
From Verif.Lib Require Import Prelude ListAux.
From Verif.Model Require Import Drain.
Open Scope nat_scope.

(** executions; the events so far, the latest first *)
Inductive dgoes (s : dst) : list devent -> dst -> Prop :=
| D_nil : dgoes s [] s
| D_next tr t e t' : dgoes s tr t -> dnext t e = Some t' -> dgoes s (e :: tr) t'.
Definition dexec (max : nat) (tr : list devent) (s : dst) : Prop := dgoes (dinit max) tr s.
(** no stage of the shutdown was cut short *)
Definition in_time (tr : list devent) : Prop := ~ In E_timeout tr.
(** requests that come, clients that leave, the order to stop and clocks are not the server's own doing *)
Definition own (e : devent) : Prop :=
  match e with E_arrive _ _ _ | E_cancel _ | E_shutdown | E_timeout => False | _ => True end.

(** update requests whose handler is at work *)
Definition at_work_now (r : req) : bool := match r_pc r with P_run _ => r_upd r | _ => false end.
Definition updates (s : dst) : nat := length (filter at_work_now (d_reqs s)).
(** update requests with a task being worked on *)
Definition busy (r : req) : bool := r_upd r && match r_going r with [] => false | _ => true end.
Definition ended (r : req) : Prop := (exists a, r_pc r = P_end a) /\ r_going r = [].
