(** C81: several calls get the elements of one segment at the same time. *)
From Verif.Lib Require Import Prelude ListAux.
From Verif.Model Require Import Loader.
From Verif.Spec Require Import LoaderSpec.
From Verif.Proof Require Import LoaderP.
Open Scope nat_scope.

(** If nothing panics, the elements that a call has got are, as long as it has them, those in the
    store; and a call that ends well ends with those that are in the store then. *)
Theorem C81_value : forall cached v c i k w, xexec no_panic cached v c -> nth_error (x_thr c) i = Some (k, TUse w) -> w = x_store c.
Proof. exact value_used. Qed.
Print Assumptions C81_value.
Theorem C81_answer : forall cached v c x c' i k p w, xexec no_panic cached v c -> no_panic x -> xstep cached c x = Some c' ->
  nth_error (x_thr c) i = Some (k, p) -> (forall r, p <> TDone r) -> nth_error (x_thr c') i = Some (k, TDone (XVal w)) -> w = x_store c'.
Proof. exact answer_now. Qed.
Print Assumptions C81_answer.
(** The cache has what is in the store, but for the time in which a call that alone has the lock
    has replaced the elements in the store and not yet in the cache. *)
Theorem C81_cache : forall cached v c w, xexec no_panic cached v c -> x_cache c = Some w ->
  w = x_store c \/ exists i, nth_error (x_thr c) i = Some (XWrite, TSaved (x_store c)) /\ forall j k p, nth_error (x_thr c) j = Some (k, p) -> x_holds p = true -> j = i.
Proof. exact cache_true. Qed.
Print Assumptions C81_cache.
(** Two calls never read the segment from the store at the same time, whatever fails or panics. *)
Theorem C81_once : forall cached v c i j k1 k2 p1 p2 n m, xexec any_x cached v c ->
  nth_error (x_thr c) i = Some (k1, p1) -> nth_error (x_thr c) j = Some (k2, p2) -> loads_now p1 n -> loads_now p2 m -> i = j.
Proof. exact (one_load any_x). Qed.
Print Assumptions C81_once.
(** Only readers share what one of them has loaded: a slice that a call may change is its own. *)
Theorem C81_shared : forall cached v c i j k1 k2 p1 n m, xexec any_x cached v c ->
  nth_error (x_thr c) i = Some (k1, p1) -> loads_now p1 n -> nth_error (x_thr c) j = Some (k2, TWait m) -> k1 = XRead /\ k2 = XRead.
Proof. exact (readers_wait any_x). Qed.
Print Assumptions C81_shared.
(** Without a panic no call waits for ever: at any time all can run to their ends, and each step
    that a call can take brings it nearer to it. *)
Theorem C81_ends : forall cached v c, xexec no_panic cached v c -> exists l c', Forall goes l /\ xplay cached c l = Some c' /\ all_done c'.
Proof. exact all_finish. Qed.
Print Assumptions C81_ends.
Theorem C81_nearer : forall cached c i c', xstep cached c (X_go i) = Some c' -> total c' < total c.
Proof. exact go_less. Qed.
Print Assumptions C81_nearer.
(** If the store does not fail, no call does. *)
Theorem C81_no_error : forall cached v c i k r, xexec no_failure cached v c -> nth_error (x_thr c) i = Some (k, TDone r) -> exists w, r = XVal w.
Proof. exact all_answered. Qed.
Print Assumptions C81_no_error.
(** After a panic of a call, no call that waits for the lock gets it, if one of the two is a writer. *)
Theorem C81_blocked : forall l cached v c c' i j k k1, xexec any_x cached v c ->
  nth_error (x_thr c) i = Some (k, TDone XPanic) -> nth_error (x_thr c) j = Some (k1, TWant) -> k = XWrite \/ k1 = XWrite ->
  xplay cached c l = Some c' -> nth_error (x_thr c') j = Some (k1, TWant).
Proof. exact (fun l cached v c c' i j k k1 X => blocked_for_ever any_x cached v l c c' i j k k1 X (fun _ => Logic.I)). Qed.
Print Assumptions C81_blocked.

(** ** Runs *)
Definition at81 (v : nat) (l : list xchoice) : xcfg := match xplay true (xstart v) l with Some c => c | None => xstart 99 end.
Definition seen81 (c : xcfg) : nat * option nat * nat * list xpc := (x_store c, x_cache c, length (x_loads c), map snd (x_thr c)).
Fixpoint allowed81 (ok : xchoice -> Prop) (l : list xchoice) : Prop := match l with [] => True | x :: l => ok x /\ allowed81 ok l end.
Lemma runs81 ok : forall l c c' v, xexec ok true v c -> allowed81 ok l -> xplay true c l = Some c' -> xexec ok true v c'.
Proof.
  induction l as [|x l IH]; intros c c' v X A P; cbn [xplay] in P; [injection P as <-; exact X|].
  destruct A as [A1 A2]. destruct (xstep true c x) as [c1|] eqn:S; [|discriminate P].
  eapply IH; [|exact A2|exact P]. econstructor; [exact X|exact A1|exact S].
Qed.
(** two readers: the second waits for the load of the first, and gets its elements *)
Definition pair81 : list xchoice := [X_come XRead; X_come XRead; X_go 0; X_go 1; X_go 0; X_go 1; X_go 0; X_go 1].
Example pair81_waits : seen81 (at81 5 pair81) = (5, None, 1, [TGet 0; TWait 0]). Proof. reflexivity. Qed.
Example pair81_stuck : xstep true (at81 5 pair81) (X_go 1) = None. Proof. reflexivity. Qed.
Example pair81_good : seen81 (at81 5 (pair81 ++ [X_go 0; X_go 0; X_go 1; X_go 1; X_go 0])) = (5, Some 5, 1, [TUse 5; TUse 5]). Proof. reflexivity. Qed.
(** a writer comes, waits for both, replaces; a third reader then has the new elements *)
Definition more81 : list xchoice := pair81 ++ [X_go 0; X_go 0; X_go 1; X_go 1; X_go 0; X_come XWrite; X_go 0; X_go 1; X_go 2; X_go 2; X_replace 2 7].
Example more81_gap : seen81 (at81 5 more81) = (7, Some 5, 1, [TDone (XVal 5); TDone (XVal 5); TSaved 7]). Proof. reflexivity. Qed.
Example more81_end : seen81 (at81 5 (more81 ++ [X_go 2; X_come XRead; X_go 3; X_go 3; X_evict; X_go 3])) = (7, None, 1, [TDone (XVal 5); TDone (XVal 5); TDone (XVal 7); TDone (XVal 7)]). Proof. reflexivity. Qed.
Example more81_ok : xexec no_panic true 5 (at81 5 more81).
Proof. apply (runs81 no_panic more81 (xstart 5)); [apply Xx_nil|repeat (split; [exact Logic.I|]); exact Logic.I|vm_compute; reflexivity]. Qed.
(** a writer does not get the lock while a reader has it *)
Example keeps81 : xstep true (at81 5 (pair81 ++ [X_come XWrite])) (X_go 2) = None. Proof. reflexivity. Qed.
(** without a cache each load is read from the store *)
Example plain81 : match xplay false (xstart 5) ([X_come XRead] ++ repeat (X_go 0) 7 ++ [X_come XRead] ++ repeat (X_go 1) 7) with Some c => seen81 c | None => seen81 (xstart 99) end = (5, None, 2, [TDone (XVal 5); TDone (XVal 5)]). Proof. reflexivity. Qed.

(** ** What is not so *)
(** A read can fail although the store would have given it its elements: the call that it waits
    for fails, say because the client of that call has gone away. *)
Definition gone81 : list xchoice := pair81 ++ [X_fail 0; X_go 0; X_go 1].
Theorem C81_own_refuted : exists l c, allowed81 no_panic l /\ (forall i, In (X_fail i) l -> i = 0) /\ xplay true (xstart 5) l = Some c /\
  nth_error (x_thr c) 1 = Some (XRead, TDone XErr) /\ length (x_loads c) = 1.
Proof.
  exists gone81, (at81 5 gone81). split; [repeat (split; [exact Logic.I|]); exact Logic.I|]. split; [|repeat split; vm_compute; reflexivity].
  intros i H. repeat (destruct H as [H|H]; [first [discriminate H|injection H as <-; reflexivity]|]). destruct H.
Qed.
Print Assumptions C81_own_refuted.
(** After a panic in a load, a call that waited for it has an empty segment without an error, and
    so has, through the cache, a call that comes later. *)
Definition bad81 : list xchoice := pair81 ++ [X_panic 0; X_go 0; X_go 1; X_go 1; X_go 1; X_come XRead; X_go 2; X_go 2].
Theorem C81_panic_refuted : exists c, xexec any_x true 5 c /\ x_store c = 5 /\ x_cache c = Some nothing /\
  nth_error (x_thr c) 1 = Some (XRead, TDone (XVal nothing)) /\ nth_error (x_thr c) 2 = Some (XRead, TUse nothing).
Proof.
  exists (at81 5 bad81). split; [|repeat split; vm_compute; reflexivity].
  apply (runs81 any_x bad81 (xstart 5)); [apply Xx_nil|repeat (split; [exact Logic.I|]); exact Logic.I|vm_compute; reflexivity].
Qed.
Print Assumptions C81_panic_refuted.
(** and a call that would replace the elements waits for ever *)
Theorem C81_ends_refuted : exists c, xexec any_x true 5 c /\ forall l c', xplay true c l = Some c' -> ~ all_done c'.
Proof.
  assert (X : xexec any_x true 5 (at81 5 (bad81 ++ [X_come XWrite]))) by (apply (runs81 any_x (bad81 ++ [X_come XWrite]) (xstart 5)); [apply Xx_nil|repeat (split; [exact Logic.I|]); exact Logic.I|vm_compute; reflexivity]).
  exists (at81 5 (bad81 ++ [X_come XWrite])). split; [exact X|]. intros l c' P D.
  pose proof (C81_blocked l true 5 _ c' 0 3 XRead XWrite X eq_refl eq_refl (or_intror eq_refl) P) as B.
  destruct (D _ _ _ B) as [r Q]. discriminate Q.
Qed.
Print Assumptions C81_ends_refuted.
