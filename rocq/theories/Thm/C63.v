(** C63: splitting in the background. *)
From Coq Require Import Strings.String.
From Verif.Lib Require Import Prelude ListAux.
From Verif.Model Require Import Element Elements Segment List Splitter.
From Verif.Spec Require Import RankSpec QuerySpec HistorySpec AnswerSpec SplitterSpec.
From Verif.Proof Require Import ListThm SettleP SplitterP.
From Verif.Thm Require Import Sample.
Open Scope nat_scope.

(** Whatever the splitter does between calls, every list that is not deleted is a list that the
    calls alone can produce, with the elements that the calls alone put there: [bspec] gives
    nothing to the splitter to change.  So all that is proved of such lists holds of it. *)
Theorem C63_contents : forall tr s b i l, bexec tr s b -> obj s i = Some l ->
  exists g z m, book b i = Some (g, z, m) /\ reachable g z l m /\ forall r, ranking_of (sin m) r -> stored_in l = r.
Proof. exact c63_contents. Qed.
Print Assumptions C63_contents.

(** A list with a segment above the split size, or two neighbours below the merge size, waits in
    the queue, or nothing was done with it since the server started, or the last thing done with
    it does not ask (a pass, reindexing, loading, making it), or did so when 1000 were waiting. *)
Theorem C63_asked : forall tr s b i l g z m, bexec tr s b -> obj s i = Some l -> book b i = Some (g, z, m) ->
  misfit g z (score_parts l) \/ misfit g z (index_parts l) ->
  In i (b_queue s) \/ (forall t e, In (t, e) tr -> ~ on t e i) \/
  exists t e, last_on i tr t e /\ (~ asking e \/ length (b_queue t) = 1000).
Proof. exact c63_asked. Qed.
Print Assumptions C63_asked.

(** Only lists out of shape come into the queue, and only by calls that ask, at its end. *)
Theorem C63_needed : forall tr s b e s', bexec tr s b -> bevent_ok b e -> bnext s e = Some s' -> length (b_queue s) < length (b_queue s') ->
  exists i l g z m, b_queue s' = b_queue s ++ [i] /\ on s e i /\ asking e /\ obj s' i = Some l /\ book (bspec b e) i = Some (g, z, m) /\
    (misfit g z (score_parts l) \/ misfit g z (index_parts l)).
Proof. exact c63_needed. Qed.
Print Assumptions C63_needed.

Theorem C63_bound : forall tr s b, bexec tr s b -> length (b_queue s) <= 1000.
Proof. exact c63_bound. Qed.
Print Assumptions C63_bound.

(** What waits in place [k] has its turn within [k+1] passes. *)
Theorem C63_served : forall s since s' k i, goes s since s' -> nth_error (b_queue s) k = Some i -> k < splits since ->
  exists u now q, In (u, BSplit now) since /\ b_queue u = i :: q.
Proof. exact c63_served. Qed.
Print Assumptions C63_served.

(** While the process runs and something waits the splitter can go on, until segment IDs run out. *)
Theorem C63_goes_on : forall tr s b i q now, bexec tr s b -> b_up s = true -> b_queue s = i :: q -> tick now ->
  (exists s', bnext s (BSplit now) = Some s' /\ b_queue s' = q) \/
  exists l, obj s i = Some l /\ (2 ^ 32 < ss_next (l_scores l) + N.of_nat (length (ss_segs (l_scores l))) \/
                                 2 ^ 32 < ss_next (l_index l) + N.of_nat (length (ss_segs (l_index l))))%N.
Proof. exact c63_goes_on. Qed.
Print Assumptions C63_goes_on.

(** The process only ends by a list being deleted while it waits ... *)
Theorem C63_alive : forall tr s b, bexec tr s b -> b_up s = false -> exists t i, In (t, BDelete i) tr /\ In i (b_queue t).
Proof. exact c63_alive. Qed.
Print Assumptions C63_alive.
(** ... and then it does, as soon as as many passes were made as to where it waits. *)
Theorem C63_falls : forall s i n t since s', bnext s (BDelete i) = Some t -> In i (firstn n (b_queue s)) -> goes t since s' ->
  splits since < n \/ b_up s' = false.
Proof. exact c63_falls. Qed.
Print Assumptions C63_falls.

(** A list that nothing but passes works on keeps its elements, and enough passes leave only what
    cannot be split. *)
Theorem C63_settles : forall tr s b since s' i l g z m, bexec tr s b -> obj s i = Some l -> book b i = Some (g, z, m) -> goes s since s' ->
  (forall t e, In (t, e) since -> on t e i -> exists now, e = BSplit now /\ tick now) ->
  4 * length (stored_in l) + length (ss_segs (l_scores l)) + length (ss_segs (l_index l)) <= turns i since ->
  exists l', obj s' i = Some l' /\ stored_in l' = stored_in l /\
    (misfit g z (score_parts l') \/ misfit g z (index_parts l') -> Exists (fun e => z < length e /\ ~ can_split e) (score_parts l')).
Proof. exact c63_settles. Qed.
Print Assumptions C63_settles.

(** ** Cases *)
Definition b0 : books := [Some (2, 4, m0)].
Lemma start0 : bexec [] (mkB [Some l0] [] true) b0.
Proof.
  apply X_start; [constructor; [exact l0_reach|constructor]|]. intros o [<-|[]]. intros C. discriminate C.
Qed.
Definition tr1 : trace := [(mkB [Some l0] [] true, BCall 0 up1)].
Definition b1 : books := [Some (2, 4, m1)].
Lemma exec1 : bexec tr1 (mkB [Some l1] [0] true) b1.
Proof.
  apply (X_next [] (mkB [Some l0] [] true) b0 (BCall 0 up1)); [exact start0| |vm_compute; reflexivity].
  split; [|exact Logic.I]. intros g z m E. injection E as <- <- <-. exact up1_ok.
Qed.
(** the update leaves a segment of six, and asks *)
Example C63_asked_ex : bexec tr1 (mkB [Some l1] [0] true) b1 /\ obj (mkB [Some l1] [0] true) 0 = Some l1 /\
  book b1 0 = Some (2, 4, m1) /\ misfit 2 4 (score_parts l1) /\ In 0 (b_queue (mkB [Some l1] [0] true)).
Proof.
  split; [exact exec1|]. split; [reflexivity|]. split; [reflexivity|]. split; [|left; reflexivity].
  left. apply Exists_cons_tl, Exists_cons_hd. vm_compute. lia.
Qed.
(** the pass it gets splits it; nothing is left to do *)
Example C63_goes_ex : exists s' l', goes (mkB [Some l1] [0] true) [(mkB [Some l1] [0] true, BSplit 400)] s' /\ tick 400 /\
  s' = mkB [Some l'] [] true /\ wants l1 = true /\ wants l' = false /\ stored_in l' = stored_in l1.
Proof.
  exists (mkB [Some l3] [] true), l3. split; [|vm_compute; repeat split].
  apply G_next with (1 := G_nil _). vm_compute. reflexivity.
Qed.

(** Deleting a list that waits ends the process. *)
Theorem C63_deleted_refuted : exists tr s b, bexec tr s b /\ b_up s = false.
Proof.
  exists ((mkB [None] [0] true, BSplit 400) :: (mkB [Some l1] [0] true, BDelete 0) :: tr1), (mkB [None] [] false), [None].
  split; [|reflexivity].
  apply (X_next _ (mkB [None] [0] true) [None] (BSplit 400)); [|split; reflexivity|reflexivity].
  apply (X_next _ (mkB [Some l1] [0] true) b1 (BDelete 0)); [exact exec1|exact Logic.I|reflexivity].
Qed.
Print Assumptions C63_deleted_refuted.

(** One pass is not always enough, and nothing asks for another. *)
Definition batch6 : elements := map (fun k => mkE (100 + k) (100 + k) [] 0 0) [1; 2; 3; 4; 5; 6; 7; 8; 9; 10; 11; 12; 13; 14; 15; 16]%N.
Definition up6 : op := OUpdate (fun _ => 200%N) (fun _ => 201%N) 202 [] batch6.
Definition l6 : lst := Eval vm_compute in done (step l0 up6).
Definition l7 : lst := Eval vm_compute in done (split_pass true 400 l6).
Lemma up6_ok : op_ok 2 4 m0 up6.
Proof.
  split; [|split; [|split; [|split]]].
  - apply distinct_by. vm_compute. reflexivity.
  - apply (forall_by srb); [exact srb_storable|vm_compute; reflexivity].
  - intros _. split; reflexivity.
  - intros _. split; reflexivity.
  - split; reflexivity.
Qed.
Theorem C63_once_refuted : exists tr s b i l g z m, bexec tr s b /\ obj s i = Some l /\ book b i = Some (g, z, m) /\
  Exists (fun e => z < length e /\ can_split e) (score_parts l) /\ b_queue s = [].
Proof.
  exists [(mkB [Some l6] [0] true, BSplit 400); (mkB [Some l0] [] true, BCall 0 up6)], (mkB [Some l7] [] true),
    [Some (2, 4, spec_step m0 up6)], 0, l7, 2, 4, (spec_step m0 up6).
  split.
  { apply (X_next _ (mkB [Some l6] [0] true) [Some (2, 4, spec_step m0 up6)] (BSplit 400)); [|split; reflexivity|vm_compute; reflexivity].
    apply (X_next [] (mkB [Some l0] [] true) b0 (BCall 0 up6)); [exact start0| |vm_compute; reflexivity].
    split; [|exact Logic.I]. intros g z m E. injection E as <- <- <-. exact up6_ok. }
  split; [reflexivity|]. split; [reflexivity|]. split; [|reflexivity].
  apply Exists_cons_hd. split; [vm_compute; lia|].
  exists (firstn 4 (hd [] (score_parts l7))), (nth 4 (hd [] (score_parts l7)) (mkE 0 0 [] 0 0)),
    (nth 5 (hd [] (score_parts l7)) (mkE 0 0 [] 0 0)), (skipn 6 (hd [] (score_parts l7))).
  split; [vm_compute; reflexivity|]. split; [vm_compute; lia|]. intros (C & _). vm_compute in C. discriminate C.
Qed.
Print Assumptions C63_once_refuted.

(** A list that asks again and again fills the queue; others that ask then are not heard. *)
Definition two : list (option lst) := [Some l1; Some l0].
Definition b2 : books := [Some (2, 4, m1); Some (2, 4, m0)].
Lemma fill n : n <= 1000 -> exists tr, bexec tr (mkB two (repeat 0 n) true) b2.
Proof.
  induction n as [|n IH]; intros L.
  - exists []. apply X_start; [constructor; [exact l1_reach|constructor; [exact l0_reach|constructor]]|].
    intros o [<-|[<-|[]]]; intros C; discriminate C.
  - destruct (IH ltac:(lia)) as (tr & H). exists ((mkB two (repeat 0 n) true, BVerify 0) :: tr).
    apply (X_next tr _ b2 (BVerify 0) _ H); [exact Logic.I|].
    change (bnext (mkB two (repeat 0 n) true) (BVerify 0)) with (Some (mkB two (check 0 l1 (repeat 0 n)) true)).
    assert (W : wants l1 = true) by (vm_compute; reflexivity). unfold check, request. rewrite W, repeat_length.
    assert (R : n <? room = true) by (apply Nat.ltb_lt; unfold room; lia). rewrite R.
    replace (repeat 0 (S n)) with (repeat 0 n ++ [0]); [reflexivity|]. change [0] with (repeat 0 1). rewrite <- repeat_app, Nat.add_1_r. reflexivity.
Qed.
Theorem C63_full_refuted : exists tr s b i l g z m, bexec tr s b /\ obj s i = Some l /\ book b i = Some (g, z, m) /\
  misfit g z (score_parts l) /\ ~ In i (b_queue s) /\ exists t e, last_on i tr t e /\ asking e.
Proof.
  destruct (fill 1000 (le_n _)) as (tr & H).
  exists ((mkB two (repeat 0 1000) true, BCall 1 up1) :: tr), (mkB [Some l1; Some l1] (repeat 0 1000) true),
    [Some (2, 4, m1); Some (2, 4, m1)], 1, l1, 2, 4, m1.
  split.
  { apply (X_next tr _ b2 (BCall 1 up1) _ H); [|vm_compute; reflexivity].
    split; [|exact Logic.I]. intros g z m E. injection E as <- <- <-. exact up1_ok. }
  split; [reflexivity|]. split; [reflexivity|].
  split; [left; apply Exists_cons_tl, Exists_cons_hd; vm_compute; lia|].
  split; [intros C; apply repeat_spec in C; discriminate C|].
  exists (mkB two (repeat 0 1000) true), (BCall 1 up1). split; [|exact Logic.I].
  exists [], tr. split; [reflexivity|]. split; [reflexivity|]. intros t x [].
Qed.
Print Assumptions C63_full_refuted.

(** The queue full of requests of list 0 gives it 1000 passes: more than enough for [C63_settles]. *)
Fixpoint passes_from (n : nat) (s : bg) (tr : trace) : trace * bg :=
  match n with
  | O => (tr, s)
  | S k => match bnext s (BSplit 400) with Some s' => passes_from k s' ((s, BSplit 400) :: tr) | None => (tr, s) end
  end.
Lemma passes_from_goes s0 : forall n s tr, goes s0 tr s -> (forall t e, In (t, e) tr -> e = BSplit 400) ->
  goes s0 (fst (passes_from n s tr)) (snd (passes_from n s tr)) /\ (forall t e, In (t, e) (fst (passes_from n s tr)) -> e = BSplit 400).
Proof.
  induction n as [|n IH]; intros s tr HG HA; cbn [passes_from]; [auto|].
  destruct (bnext s (BSplit 400)) as [s'|] eqn:E; [|auto]. apply IH; [apply (G_next s0 tr s _ s' HG E)|].
  intros t e [H|H]; [injection H as _ <-; reflexivity|apply (HA t e H)].
Qed.
Example C63_settles_ex : exists tr since s' l',
  bexec tr (mkB two (repeat 0 60) true) b2 /\ goes (mkB two (repeat 0 60) true) since s' /\
  (forall t e, In (t, e) since -> on t e 0 -> exists now, e = BSplit now /\ tick now) /\
  4 * length (stored_in l1) + length (ss_segs (l_scores l1)) + length (ss_segs (l_index l1)) <= turns 0 since /\
  obj s' 0 = Some l' /\ wants l1 = true /\ wants l' = false.
Proof.
  destruct (fill 60 ltac:(lia)) as (tr & H). exists tr.
  destruct (passes_from_goes (mkB two (repeat 0 60) true) 60 _ [] (G_nil _) (fun t e C => match C with end)) as (G1 & G2).
  eexists. eexists. exists (match obj (snd (passes_from 60 (mkB two (repeat 0 60) true) [])) 0 with Some l => l | None => l0 end).
  split; [exact H|]. split; [exact G1|]. split; [intros t e Hi _; exists 400%N; split; [apply (G2 t e Hi)|split; reflexivity]|].
  split; [apply Nat.leb_le; vm_compute; reflexivity|]. split; [vm_compute; reflexivity|]. split; vm_compute; reflexivity.
Qed.
