(** Model of onEveryList (/repo/api/multilist.go:468-521): the goroutines of one cross-list
    request.  Every step is one communication, lock region or list operation.  A list operation
    is one step, as different goroutines work on different lists (overlapping operations on one
    list: Model/Locks.v).  Other requests are not part of the model. *)
From Coq Require Import Strings.String Strings.Ascii.
From Verif.Lib Require Import Prelude ListAux Bytes.
Open Scope nat_scope.

(** what the function applied to a list does: it returns, fails or panics *)
Inductive fnres (R E : Type) := F_ok (r : R) | F_err (e : E) | F_panic (p : E).
Arguments F_ok {R E}. Arguments F_err {R E}. Arguments F_panic {R E}.
(** entries of results.Errors: ErrNotFound, the error, the recovered value *)
Inductive ferr (E : Type) := X_missing | X_err (e : E) | X_panic (p : E).
Arguments X_missing {E}. Arguments X_err {E}. Arguments X_panic {E}.

Section Fanout.
  Variables L R E : Type.
  (** the limit and the function *)
  Record fcfg := FC { c_limit : nat; c_fn : bytes -> L -> L * fnres R E }.
  (** the caller: about to look at ctx (480-483), about to take a token (484-486), in wg.Wait (519),
      returned (482, 520) *)
  Inductive mpc := M_loop (rest : list bytes) | M_take (id : bytes) (rest : list bytes) | M_wait | M_ret (ok : bool).
  (** a goroutine: started (487), with something to record (490, 502, 509, 514), recorded,
      token returned (495-497), wg.Done called (498) *)
  Inductive wpc := W_new | W_got (r : R + ferr E) | W_rec | W_tok | W_gone.
  Record fstate := FS {
    f_main : mpc; f_cancelled : bool; f_tokens : nat; f_wg : nat;
    f_work : list (bytes * wpc);
    f_ok : bytes -> option R; f_er : bytes -> option (ferr E);
    f_lists : bytes -> option L
  }.
  Definition fset {A} (m : bytes -> option A) (k : bytes) (v : A) : bytes -> option A := fun x => if beq k x then Some v else m x.
  (** 469-479 *)
  Definition finit (c : fcfg) (ids : list bytes) (ls : bytes -> option L) : fstate :=
    FS (M_loop ids) false (c_limit c) (length ids) [] (fun _ => None) (fun _ => None) ls.

  Inductive label := G_main | G_cancel | G_work (k : nat).
  Definition main_step (c : fcfg) (s : fstate) : option fstate :=
    match f_main s with
    | M_loop [] => Some (FS M_wait (f_cancelled s) (f_tokens s) (f_wg s) (f_work s) (f_ok s) (f_er s) (f_lists s))
    | M_loop (id :: r) =>
        let next := if f_cancelled s then M_ret false else M_take id r in
        Some (FS next (f_cancelled s) (f_tokens s) (f_wg s) (f_work s) (f_ok s) (f_er s) (f_lists s))
    | M_take id r =>
        let go t := Some (FS (M_loop r) (f_cancelled s) t (f_wg s) (f_work s ++ [(id, W_new)]) (f_ok s) (f_er s) (f_lists s)) in
        if Nat.eqb (c_limit c) 0 then go (f_tokens s)
        else match f_tokens s with 0 => None | S t => go t end
    | M_wait => if Nat.eqb (f_wg s) 0
                then Some (FS (M_ret true) (f_cancelled s) (f_tokens s) (f_wg s) (f_work s) (f_ok s) (f_er s) (f_lists s))
                else None
    | M_ret _ => None
    end.
  Definition got (r : fnres R E) : R + ferr E :=
    match r with F_ok x => inl x | F_err e => inr (X_err e) | F_panic p => inr (X_panic p) end.
  Definition work_step (c : fcfg) (k : nat) (s : fstate) : option fstate :=
    match nth_error (f_work s) k with
    | None => None
    | Some (id, pc) =>
      let set pc' := upd_nth k (fun _ => (id, pc')) (f_work s) in
      match pc with
      | W_new =>
        match f_lists s id with
        | None => Some (FS (f_main s) (f_cancelled s) (f_tokens s) (f_wg s) (set (W_got (inr X_missing))) (f_ok s) (f_er s) (f_lists s))
        | Some l => let '(l', r) := c_fn c id l in
            Some (FS (f_main s) (f_cancelled s) (f_tokens s) (f_wg s) (set (W_got (got r))) (f_ok s) (f_er s) (fset (f_lists s) id l'))
        end
      | W_got (inl x) => Some (FS (f_main s) (f_cancelled s) (f_tokens s) (f_wg s) (set W_rec) (fset (f_ok s) id x) (f_er s) (f_lists s))
      | W_got (inr e) => Some (FS (f_main s) (f_cancelled s) (f_tokens s) (f_wg s) (set W_rec) (f_ok s) (fset (f_er s) id e) (f_lists s))
      | W_rec =>
        if Nat.eqb (c_limit c) 0 then Some (FS (f_main s) (f_cancelled s) (f_tokens s) (f_wg s) (set W_tok) (f_ok s) (f_er s) (f_lists s))
        (* a send to the channel, whose capacity is the limit *)
        else if Nat.ltb (f_tokens s) (c_limit c)
        then Some (FS (f_main s) (f_cancelled s) (S (f_tokens s)) (f_wg s) (set W_tok) (f_ok s) (f_er s) (f_lists s))
        else None
      | W_tok => Some (FS (f_main s) (f_cancelled s) (f_tokens s) (f_wg s - 1) (set W_gone) (f_ok s) (f_er s) (f_lists s))
      | W_gone => None
      end
    end.
  (** [G_cancel]: the context is cancelled, at any time *)
  Definition fstep (c : fcfg) (g : label) (s : fstate) : option fstate :=
    match g with
    | G_main => main_step c s
    | G_cancel => if f_cancelled s then None
                  else Some (FS (f_main s) true (f_tokens s) (f_wg s) (f_work s) (f_ok s) (f_er s) (f_lists s))
    | G_work k => work_step c k s
    end.
  Fixpoint frun (c : fcfg) (gs : list label) (s : fstate) : option fstate :=
    match gs with
    | [] => Some s
    | g :: r => match fstep c g s with Some s' => frun c r s' | None => None end
    end.
  (** goroutines that hold a token *)
  Definition working (p : bytes * wpc) : bool := match snd p with W_new | W_got _ | W_rec => true | _ => false end.

  (** multilist.go:93-96, 140-144, 225-230, 291-296, 327-332: [res] is nil after a cancellation;
      [None] = nil dereference *)
  Definition answer (errors_only ok : bool) (s : fstate) : option (option ((bytes -> option R) * (bytes -> option (ferr E)))) :=
    match ok, errors_only with
    | true, true => Some (Some (fun _ => None, f_er s))
    | true, false => Some (Some (f_ok s, f_er s))
    | false, true => None
    | false, false => Some None
    end.
End Fanout.
Arguments FC {L R E}. Arguments c_limit {L R E}. Arguments c_fn {L R E}.
Arguments W_new {R E}. Arguments W_got {R E}. Arguments W_rec {R E}. Arguments W_tok {R E}. Arguments W_gone {R E}.
Arguments FS {L R E}. Arguments f_main {L R E}. Arguments f_cancelled {L R E}. Arguments f_tokens {L R E}. Arguments f_wg {L R E}.
Arguments f_work {L R E}. Arguments f_ok {L R E}. Arguments f_er {L R E}. Arguments f_lists {L R E}.
Arguments finit {L R E}. Arguments main_step {L R E}. Arguments work_step {L R E}. Arguments fstep {L R E}. Arguments frun {L R E}.
Arguments working {R E}. Arguments answer {L R E}. Arguments got {R E}.
