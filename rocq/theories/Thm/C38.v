(** C38: the retrying store. *)
From Verif.Lib Require Import Prelude ListAux.
From Verif.Model Require Import Small.
From Verif.Proof Require Import SmallP.
Open Scope nat_scope.

(** A retried operation ends at, and returns the result of, the first attempt that is not
    a non-permanent failure with neither the caller's context done nor the back-off
    stopping. *)
Theorem C38_result : forall A perm (atts : list (attempt A)) r rest, retry perm atts = Some (r, rest) <->
  exists before a, atts = before ++ a :: rest /\ Forall (goes_on perm) before /\ ~ goes_on perm a /\ r = at_res a.
Proof. intros A. exact (@c38_retry A). Qed.
Print Assumptions C38_result.

(** Get returns that attempt's bytes, or nil and that attempt's error, when the result
    variable is read after the call. *)
Theorem C38_get : forall A perm (atts : list (attempt A)) b e, rs_get true perm atts = Some (b, e) ->
  exists before a rest, atts = before ++ a :: rest /\ Forall (goes_on perm) before /\ ~ goes_on perm a /\
    match at_res a with inl x => b = Some x /\ e = None | inr x => b = None /\ e = Some x end.
Proof. intros A. exact (@c38_get A). Qed.
Print Assumptions C38_get.

(** Nothing in the language requires that: reading it first, Get returns nil bytes and a nil error. *)
Theorem C38_get_order_refuted : exists (atts : list (attempt nat)), rs_get false [] atts = Some (None, None).
Proof. exists [mkAtt (inl 7) false false false]. reflexivity. Qed.
Print Assumptions C38_get_order_refuted.

(** Whatever PermanentErr options are given, a new store's permanent errors are those
    in the default map before the call. *)
Theorem C38_permanent_own : forall opts h h' own, 0 < length h -> new_retry opts h = (h', own) -> nth own h' [] = nth 0 h [].
Proof. exact c38_own. Qed.
Print Assumptions C38_permanent_own.

(** The errors of the first non-empty option go into the default map. *)
Theorem C38_permanent_shared : forall opts h, 0 < length h ->
  nth 0 (fst (new_retry opts h)) [] = nth 0 h [] ++ errs_of (hd [] (filter (fun l => negb (Nat.eqb (length l) 0)) opts)).
Proof. exact c38_shared. Qed.
Print Assumptions C38_permanent_shared.

(** So an error registered as permanent is retried by the store it was registered with. *)
Theorem C38_permanent_refuted : exists opts e h' own (atts : list (attempt nat)), new_retry opts [[1; 2; 3]] = (h', own) /\
  In [Some e] opts /\ rs_get true (nth own h' []) (mkAtt (inr e) false false false :: atts) = rs_get true (nth own h' []) atts /\
  rs_get true (nth own h' []) atts <> None.
Proof.
  exists [[Some 9]], 9, [[1; 2; 3; 9]; [1; 2; 3]], 1, [mkAtt (inl 7) false false false].
  split; [reflexivity|]. split; [left; reflexivity|]. split; [reflexivity|discriminate].
Qed.
Print Assumptions C38_permanent_refuted.

Definition bad (e : nat) : attempt nat := mkAtt (inr e) false false false.
Example C38_ex1 : retry [1; 2; 3] [bad 8; bad 9; mkAtt (inl 5) true false false; bad 4] = Some (inl 5, [bad 4]).
Proof. reflexivity. Qed.
Example C38_ex2 : retry [1; 2; 3] [bad 8; bad 2; mkAtt (inl 5) false false false] = Some (inr 2, [mkAtt (inl 5) false false false]).
Proof. reflexivity. Qed.
Example C38_ex3 : rs_get true [1; 2; 3] [bad 8; mkAtt (inr 9) true false false; mkAtt (inl 5) true false false] = Some (None, Some 9).
Proof. reflexivity. Qed.
Example C38_ex4 : let '(h1, own1) := new_retry [[]; [Some 9; None]; [Some 10]] [[1; 2; 3]] in
  (nth own1 h1 [], nth 0 h1 []) = ([1; 2; 3], [1; 2; 3; 9]) /\ let '(h2, own2) := new_retry [] h1 in nth own2 h2 [] = [1; 2; 3; 9].
Proof. split; reflexivity. Qed.
