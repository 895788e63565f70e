(** Model of the limit on updates and of an orderly shutdown: /repo/api/shutdown.go:25-81,
    /repo/bucket.go:10-19, /repo/api/services.go:33-35, /repo/api/rankdb.go:131-137,227-229,262-272,
    /repo/manager.go:67-98,133-160, and of requests that work on several lists
    (api/multilist.go:468-521) what matters here.
    github.com/klauspost/shutdown2 is an outside library; its documentation is taken to hold: Lock
    gives nil once shutdown was begun; the stages pre-shutdown, first, second and third follow
    one another, each when everything registered for it is finished or its time is up; the first
    of them also waits for all locks.
    What requests do is a set of numbered tasks, a task is the work on one list; it takes effect in
    one step, or fails.  The number of goroutines of one request (C56), the pruner, backup jobs and
    the interval saves before the shutdown (C33, C62) are left out. *)
From Coq Require Import Strings.String.
From Verif.Lib Require Import Prelude ListAux.
Open Scope nat_scope.

(** answers: errShutdown and errCancelled (shutdown.go:19-20); the handler's own, with the tasks
    that it reports as done; 200 with no content of onEveryList after a cancellation
    (multilist.go:480-483,144) *)
Inductive ans := A_shut | A_cancelled | A_ok (tasks : list nat) | A_nothing.
(** a request: arrived; has a lock of the shutdown library and is in UpdateRequest
    (shutdown.go:27-31,66-81); at work, with the tasks it has not begun; answered *)
Inductive pc := P_new | P_in | P_run (todo : list nat) | P_end (a : ans).
(** [r_multi]: the tasks are goroutines of onEveryList; [r_going]: tasks being worked on;
    [r_done]: tasks that succeeded *)
Record req := mkR { r_upd : bool; r_multi : bool; r_tasks : list nat; r_cancel : bool; r_pc : pc; r_going : list nat; r_done : list nat }.

(** [S_save b]: the second stage; the saver has begun *)
Inductive stage := S_up | S_pre | S_first | S_save (begun : bool) | S_close | S_closed.
(** [d_max]: MaxUpdates, 0 if there is no limit (api/rankdb.go:227-229); [d_free]: tokens in updateBucket;
    [d_told]: shutdownStarted is closed; [d_queue], [d_pass]: split requests that wait, and whether the
    splitter is at work; [d_eff]: effects in the store, (request, task); [d_saved]: those that were
    there when the last save of the list file began; [d_gone]: effects that came after the store
    was closed *)
Record dst := mkD {
  d_max : nat; d_free : nat; d_stage : stage; d_told : bool; d_queue : nat; d_pass : bool;
  d_reqs : list req; d_eff : list (nat * nat); d_saved : list (nat * nat); d_gone : list (nat * nat) }.
(** bucket.go:13-19 *)
Definition dinit (max : nat) : dst := mkD max max S_up false 0 false [] [] [] [].

Definition set_reqs (s : dst) (rs : list req) : dst :=
  mkD (d_max s) (d_free s) (d_stage s) (d_told s) (d_queue s) (d_pass s) rs (d_eff s) (d_saved s) (d_gone s).
Definition set_free (s : dst) (n : nat) : dst :=
  mkD (d_max s) n (d_stage s) (d_told s) (d_queue s) (d_pass s) (d_reqs s) (d_eff s) (d_saved s) (d_gone s).
Definition set_stage (s : dst) (g : stage) : dst :=
  mkD (d_max s) (d_free s) g (d_told s) (d_queue s) (d_pass s) (d_reqs s) (d_eff s) (d_saved s) (d_gone s).
Definition set_bg (s : dst) (q : nat) (p : bool) : dst :=
  mkD (d_max s) (d_free s) (d_stage s) (d_told s) q p (d_reqs s) (d_eff s) (d_saved s) (d_gone s).
Definition set_req (s : dst) (i : nat) (r : req) : dst := set_reqs s (upd_nth i (fun _ => r) (d_reqs s)).
Definition at_pc (r : req) (p : pc) : req := mkR (r_upd r) (r_multi r) (r_tasks r) (r_cancel r) p (r_going r) (r_done r).
Definition at_work (r : req) (p : pc) (g d : list nat) : req := mkR (r_upd r) (r_multi r) (r_tasks r) (r_cancel r) p g d.

Definition limited (s : dst) : bool := 0 <? d_max s.
(** what a request holds: the lock until its handler has returned (shutdown.go:31), a token while
    the handler of an update is at work *)
Definition has_lock (r : req) : bool := match r_pc r with P_in | P_run _ => true | _ => false end.
Definition has_token (r : req) : bool := match r_pc r with P_run _ => r_upd r | _ => false end.
(** shutdown.go:72-74: the deferred done of the handlers *)
Definition give_back (s : dst) (r : req) : dst := if limited s && has_token r then set_free s (S (d_free s)) else s.
Fixpoint take_out (t : nat) (l : list nat) : list nat :=
  match l with [] => [] | x :: r => if x =? t then r else x :: take_out t r end.

Inductive devent :=
| E_arrive (upd multi : bool) (tasks : list nat)
| E_cancel (i : nat)                 (** the client goes away *)
| E_lock (i : nat)                   (** shutdown.go:27-30 *)
| E_token (i : nat)                  (** 71, or no limit, 80; handlers that change nothing do not ask *)
| E_left (i : nat)                   (** 69-70 *)
| E_refused (i : nat)                (** 75-76 *)
| E_begin (i : nat)                  (** the next task; multilist.go:480-487 *)
| E_effect (i t : nat) (asks : bool) (** the task succeeds; it may ask for a split pass *)
| E_fail (i t : nat)
| E_abandon (i : nat)                (** multilist.go:481-483 *)
| E_answer (i : nat)                 (** all tasks have ended (multilist.go:519) *)
| E_pass | E_passed                  (** manager.go:141-152 *)
| E_shutdown                         (** the process is told to stop *)
| E_told                             (** services.go:33-35 *)
| E_locks                            (** pre-shutdown has ended: no lock is held *)
| E_stopped                          (** the splitter has stopped (manager.go:153-155) *)
| E_save | E_saved                   (** manager.go:86-94 *)
| E_close                            (** api/rankdb.go:266-271 *)
| E_timeout.                         (** the time of a stage is up *)

Definition running (g : stage) : bool := match g with S_up | S_pre | S_first => true | _ => false end.
Definition dnext (s : dst) (e : devent) : option dst :=
  match e with
  | E_arrive u m ts => Some (set_reqs s (d_reqs s ++ [mkR u m ts false P_new [] []]))
  | E_cancel i =>
    match nth_error (d_reqs s) i with
    | Some r => if r_cancel r then None else Some (set_req s i (mkR (r_upd r) (r_multi r) (r_tasks r) true (r_pc r) (r_going r) (r_done r)))
    | None => None
    end
  | E_lock i =>
    match nth_error (d_reqs s) i with
    | Some r => match r_pc r with
                | P_new => Some (set_req s i (at_pc r (match d_stage s with S_up => P_in | _ => P_end A_shut end)))
                | _ => None
                end
    | None => None
    end
  | E_token i =>
    match nth_error (d_reqs s) i with
    | Some r => match r_pc r with
                | P_in => let go s := Some (set_req s i (at_pc r (P_run (r_tasks r)))) in
                          if limited s && r_upd r then match d_free s with S n => go (set_free s n) | O => None end else go s
                | _ => None
                end
    | None => None
    end
  | E_left i =>
    match nth_error (d_reqs s) i with
    | Some r => match r_pc r with
                | P_in => if limited s && r_upd r && r_cancel r then Some (set_req s i (at_pc r (P_end A_cancelled))) else None
                | _ => None
                end
    | None => None
    end
  | E_refused i =>
    match nth_error (d_reqs s) i with
    | Some r => match r_pc r with
                | P_in => if limited s && r_upd r && d_told s then Some (set_req s i (at_pc r (P_end A_shut))) else None
                | _ => None
                end
    | None => None
    end
  | E_begin i =>
    match nth_error (d_reqs s) i with
    | Some r => match r_pc r with
                | P_run (t :: ts) => if r_multi r && r_cancel r then None
                                     else Some (set_req s i (at_work r (P_run ts) (t :: r_going r) (r_done r)))
                | _ => None
                end
    | None => None
    end
  | E_effect i t asks =>
    match nth_error (d_reqs s) i with
    | Some r => if existsb (Nat.eqb t) (r_going r) then
                  let s' := set_req s i (at_work r (r_pc r) (take_out t (r_going r)) (t :: r_done r)) in
                  let q := if asks : bool then S (d_queue s) else d_queue s in
                  Some (match d_stage s with
                        | S_closed => mkD (d_max s) (d_free s) (d_stage s) (d_told s) q (d_pass s) (d_reqs s') (d_eff s) (d_saved s) ((i, t) :: d_gone s)
                        | _ => mkD (d_max s) (d_free s) (d_stage s) (d_told s) q (d_pass s) (d_reqs s') ((i, t) :: d_eff s) (d_saved s) (d_gone s)
                        end)
                else None
    | None => None
    end
  | E_fail i t =>
    match nth_error (d_reqs s) i with
    | Some r => if existsb (Nat.eqb t) (r_going r) then Some (set_req s i (at_work r (r_pc r) (take_out t (r_going r)) (r_done r))) else None
    | None => None
    end
  | E_abandon i =>
    match nth_error (d_reqs s) i with
    | Some r => match r_pc r with
                | P_run (_ :: _) => if r_multi r && r_cancel r then Some (set_req (give_back s r) i (at_pc r (P_end A_nothing))) else None
                | _ => None
                end
    | None => None
    end
  | E_answer i =>
    match nth_error (d_reqs s) i with
    | Some r => match r_pc r, r_going r with
                | P_run [], [] => Some (set_req (give_back s r) i (at_pc r (P_end (A_ok (r_done r)))))
                | _, _ => None
                end
    | None => None
    end
  | E_pass => if running (d_stage s) && negb (d_pass s) then match d_queue s with S q => Some (set_bg s q true) | O => None end else None
  | E_passed => if d_pass s then Some (set_bg s (d_queue s) false) else None
  | E_shutdown => match d_stage s with S_up => Some (set_stage s S_pre) | _ => None end
  | E_told =>
    match d_stage s with
    | S_up => None
    | _ => if d_told s then None
           else Some (mkD (d_max s) (d_free s) (d_stage s) true (d_queue s) (d_pass s) (d_reqs s) (d_eff s) (d_saved s) (d_gone s))
    end
  | E_locks => match d_stage s with S_pre => if d_told s && negb (existsb has_lock (d_reqs s)) then Some (set_stage s S_first) else None | _ => None end
  | E_stopped => match d_stage s with S_first => if d_pass s then None else Some (set_stage s (S_save false)) | _ => None end
  | E_save =>
    match d_stage s with
    | S_save false => Some (mkD (d_max s) (d_free s) (S_save true) (d_told s) (d_queue s) (d_pass s) (d_reqs s) (d_eff s) (d_eff s) (d_gone s))
    | _ => None
    end
  | E_saved => match d_stage s with S_save true => Some (set_stage s S_close) | _ => None end
  | E_close => match d_stage s with S_close => Some (set_stage s S_closed) | _ => None end
  | E_timeout =>
    match d_stage s with
    | S_pre => Some (set_stage s S_first)
    | S_first => Some (set_stage s (S_save false))
    | S_save _ => Some (set_stage s S_close)
    | _ => None
    end
  end.
