(** What a backup job must deliver. *)
From Coq Require Import Strings.Byte Strings.String.
From Verif.Lib Require Import Prelude ListAux.
From Verif.Model Require Import List Msgp Codec Backup Job.
From Verif.Spec Require Import BackupSpec.
Open Scope nat_scope.

(** the lists read, in order, and their contents when read *)
Definition read_ids (tr : list jevent) : list string := map (fun e => match e with JRead id _ _ => id end) tr.
Fixpoint as_read (tr : list jevent) : db :=
  match tr with
  | [] => fun _ => None
  | JRead id d l :: tr => fun k => if string_dec k id then Some (d, l) else as_read tr k
  end.
(** the stream of all lists read, with its end mark *)
Definition full_stream (tr : list jevent) : wire := flat_map (fun e => match e with JRead _ d l => record_bytes d l end) tr ++ w_bool false.

(** steps of the goroutine of the job *)
Definition is_job (x : jchoice) : bool := match x with J_go _ _ | J_result _ => true | _ => false end.
(** further steps; [n] of them are steps of the job *)
Inductive jgoes (ids : list string) (ch : bool) : jcfg -> nat -> list jevent -> jcfg -> Prop :=
| Jg_nil c : jgoes ids ch c 0 [] c
| Jg_step c n tr c1 x e c2 : jgoes ids ch c n tr c1 -> jfire ids ch c1 x = Some (e, c2) ->
    jgoes ids ch c (if is_job x then S n else n) (tr ++ jev e) c2.

Definition any_choice (x : jchoice) : Prop := True.
(** the server's lists can always be backed up *)
Definition sound_lists (x : jchoice) : Prop := match x with J_lists m => sound_db m | _ => True end.
Definition over (c : jcfg) : Prop := t_done (j_st c) = true.
(** the job got to its destination *)
Definition opened (c : jcfg) : Prop := ~ In "saver"%string (t_errs (j_st c)).
(** a given run *)
Fixpoint jplay (ids : list string) (ch : bool) (c : jcfg) (l : list jchoice) : option (list jevent * jcfg) :=
  match l with
  | [] => Some ([], c)
  | x :: l => match jfire ids ch c x with
              | Some (e, c) => match jplay ids ch c l with Some (tr, c) => Some (jev e ++ tr, c) | None => None end
              | None => None
              end
  end.
