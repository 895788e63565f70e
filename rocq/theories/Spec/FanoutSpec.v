(** What a cross-list request does: the function is applied to every list by itself. *)
From Coq Require Import Strings.String Strings.Ascii.
From Verif.Lib Require Import Prelude ListAux Bytes.
From Verif.Model Require Import Element Elements Segment List Access Api Server Fanout.
Open Scope nat_scope.

Section Spec.
  Variables (L R E : Type) (fn : bytes -> L -> L * fnres R E) (ls : bytes -> option L).
  (** the list afterwards *)
  Definition list_after (id : bytes) : option L := match ls id with Some l => Some (fst (fn id l)) | None => None end.
  (** its entries in Success and in Errors *)
  Definition success_of (id : bytes) : option R :=
    match ls id with Some l => match snd (fn id l) with F_ok r => Some r | _ => None end | None => None end.
  Definition error_of (id : bytes) : option (ferr E) :=
    match ls id with
    | None => Some X_missing
    | Some l => match snd (fn id l) with F_ok _ => None | F_err e => Some (X_err e) | F_panic p => Some (X_panic p) end
    end.
  (** the work on all of [ids] is done and reported, and on nothing else *)
  Definition complete (ids : list bytes) (s : fstate L R E) : Prop :=
    forall id, (In id ids -> f_lists s id = list_after id /\ f_ok s id = success_of id /\ f_er s id = error_of id) /\
               (~ In id ids -> f_lists s id = ls id /\ f_ok s id = None /\ f_er s id = None).
End Spec.
Arguments list_after {L R E}. Arguments success_of {L R E}. Arguments error_of {L R E}. Arguments complete {L R E}.

(** the function that a handler of Model/Server.v applies *)
Definition as_fn (f : bytes -> entry -> outcome (lst * mres)) (id : bytes) (e : entry) : entry * fnres mres mres :=
  match f id e with
  | Done (l, r) => (with_list e l, match r with M_ok _ => F_ok r | _ => F_err r end)
  | _ => (e, F_panic M_missing)
  end.
(** the answer for list [id] in the maps Success and Errors is [m] *)
Definition answered (s : fstate entry mres mres) (id : bytes) (m : mres) : Prop :=
  if is_error m then f_ok s id = None /\ (f_er s id = Some (X_err m) \/ (m = M_missing /\ f_er s id = Some X_missing))
  else f_ok s id = Some m /\ f_er s id = None.
