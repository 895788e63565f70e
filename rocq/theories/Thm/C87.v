(** C87: the list pruner. *)
From Coq Require Import Strings.String.
From Verif.Lib Require Import Prelude ListAux.
From Verif.Model Require Import Prune.
From Verif.Spec Require Import PruneSpec.
From Verif.Proof Require Import PruneP.
Open Scope nat_scope.

(** a list with LoadIndex that nobody replaces, deletes or loads stays as it is *)
Theorem C87_spares : forall every s l s' id m, pplay every s l = Some s' -> Forall (fun x => ~ about id x) l ->
  state_of s id = Some (true, m) -> state_of s' id = Some (true, m).
Proof. intros every s l. exact (c87_spares every l s). Qed.
Print Assumptions C87_spares.

(** interval 0: nothing but the stop on shutdown *)
Theorem C87_off : forall lists l s', pplay false (pstart lists) l = Some s' -> forall x, In x l -> by_pruner x = true -> x = K_end.
Proof. intros lists l s' E. exact (proj2 (c87_off l lists s' E)). Qed.
Print Assumptions C87_off.

(** one round: every list at most once, and once if it was there from the beginning to the end *)
Theorem C87_round : forall every s l s' id, pplay every s (K_take :: l ++ [K_done]) = Some s' -> Forall within l ->
  tally (visit_of id) l <= 1 /\ (state_of s id <> None -> ~ In (K_del id) l -> tally (visit_of id) l = 1).
Proof. exact c87_round. Qed.
Print Assumptions C87_round.

(** a list without LoadIndex that nobody uses meanwhile is out of memory after the round *)
Theorem C87_frees : forall every s l s' id m, pplay every s (K_take :: l ++ [K_done]) = Some s' -> Forall within l ->
  Forall (fun x => ~ about id x) l -> ~ In (K_visit id false) l -> state_of s id = Some (false, m) -> state_of s' id = Some (false, false).
Proof. exact c87_frees. Qed.
Print Assumptions C87_frees.

(** it stops only when asked and between rounds, and does nothing afterwards *)
Theorem C87_stop : forall every lists l l2 s', pplay every (pstart lists) (l ++ K_end :: l2) = Some s' ->
  In K_ask l /\ tally is_take l = tally is_done l /\ forall x, In x l2 -> by_pruner x = false.
Proof. exact c87_stop_all. Qed.
Print Assumptions C87_stop.

(** once it is asked it can always stop, without another round *)
Theorem C87_stops : forall every lists l s, pplay every (pstart lists) l = Some s -> p_ask s = true -> p_pc s <> PStop ->
  exists l2 s2, pplay every s l2 = Some s2 /\ p_pc s2 = PStop /\ Forall (fun x => by_pruner x = true /\ is_take x = false) l2.
Proof. exact c87_stops. Qed.
Print Assumptions C87_stops.

(** rounds that begin: no more than ticks, one of which may have been waiting *)
Theorem C87_rounds : forall every s l s', pplay every s l = Some s' ->
  tally is_take l <= (if p_tick s then 1 else 0) + tally is_tick l.
Proof. exact c87_rounds. Qed.
Print Assumptions C87_rounds.

(** but after it was asked there is no bound on the rounds that begin *)
Theorem C87_prompt_refuted : forall (a : plist) n, exists l s s', pplay true (pstart [a]) [K_ask] = Some s /\ pplay true s l = Some s' /\
  tally is_take l = n /\ p_pc s' = PWait.
Proof. exact c87_many. Qed.
Print Assumptions C87_prompt_refuted.

(** ** Cases *)
Definition three : list plist := [mkPL "a" false true; mkPL "b" true true; mkPL "c" false true].
Definition round3 : list pchoice :=
  [K_visit "c" true; K_tick; K_del "a"; K_visit "b" true; K_add "d" false true; K_ask].
Example C87_run : option_map (fun s' => map (state_of s') ["a"; "b"; "c"; "d"]%string) (pplay true (pstart three) ([K_tick] ++ K_take :: round3 ++ [K_done])) =
  Some [None; Some (true, true); Some (false, false); Some (false, true)].
Proof. vm_compute. reflexivity. Qed.
(** a round cannot end before it has met "c" *)
Example C87_early : pplay true (pstart three) [K_tick; K_take; K_visit "a" true; K_visit "b" true; K_done] = None.
Proof. reflexivity. Qed.
Example C87_twice : pplay true (pstart three) [K_tick; K_take; K_visit "a" true; K_visit "a" true] = None.
Proof. reflexivity. Qed.
Example C87_stopped : option_map (fun s' => (p_pc s', state_of s' "c")) (pplay true (pstart three) ([K_tick; K_take] ++ round3 ++ [K_done; K_end; K_load "c"; K_tick])) =
  Some (PStop, Some (false, true)).
Proof. vm_compute. reflexivity. Qed.
Example C87_run_holds : Forall within round3 /\ Forall (fun x => ~ about "c" x) round3 /\ ~ In (K_visit "c" false) round3 /\ ~ In (K_del "c") round3.
Proof. split; [repeat constructor|]. split; [repeat constructor; cbn; congruence|]. split; cbn; intuition congruence. Qed.
Example C87_off_run : option_map p_pc (pplay false (pstart three) [K_load "a"; K_ask; K_end; K_del "b"]) = Some PStop.
Proof. vm_compute. reflexivity. Qed.
