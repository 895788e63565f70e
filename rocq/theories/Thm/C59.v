(** C59: the Badger store is a map, and what it loses. *)
From Coq Require Import Strings.String Strings.Ascii Strings.Byte.
From Verif.Lib Require Import Prelude ListAux.
From Verif.Model Require Import KV MaxSize Badger.
From Verif.Spec Require Import LazySpec BadgerSpec.
From Verif.Proof Require Import BadgerP BadgerRun.
Open Scope nat_scope.

(** Without failures, a Get answered from the queue returns the latest value. *)
Theorem C59_queued : forall K d tr c, plain_sets K -> bexec (okc K) d tr c -> apart tr ->
  forall t1 k v t2, tr = t1 ++ BHit k v :: t2 -> latest (held d) t1 k = Some v.
Proof. exact c59_hit. Qed.
Print Assumptions C59_queued.

(** A Get answered from the database returns a value the key had during the call. *)
Theorem C59_database : forall K d tr c, plain_sets K -> bexec (okc K) d tr c -> apart tr ->
  forall t1 n k r t2, tr = t1 ++ BAns n k r :: t2 -> exists v, r = Some v /\ current (held d) t1 n k v.
Proof. exact c59_ans. Qed.
Print Assumptions C59_database.

(** A Get that overlaps nothing returns the latest value. *)
Theorem C59_alone : forall K d tr c, plain_sets K -> bexec (okc K) d tr c -> apart tr ->
  forall t1 n k r t2, tr = t1 ++ BAsk n k :: BAns n k r :: t2 -> r = Some (latest (held d) t1 k).
Proof. exact c59_alone. Qed.
Print Assumptions C59_alone.

(** At every moment, also after a Close and a new start, the store is the map of the calls. *)
Theorem C59_map : forall K d tr c, plain_sets K -> bexec (okc K) d tr c -> apart tr ->
  forall k, K k -> ~ In k (map snd (dels tr)) -> reads c k (latest (held d) tr k).
Proof. exact c59_settled. Qed.
Print Assumptions C59_map.

(** No call then reports an error. *)
Theorem C59_no_errors : forall K d tr c, plain_sets K -> bexec (okc K) d tr c -> apart tr -> Forall fine_event tr.
Proof. exact c59_ok. Qed.
Print Assumptions C59_no_errors.

(** After the process dies at any moment, also within a Set or a flush, every key holds a
    value it had earlier or the one being set, and at most 99 keys do not hold the latest. *)
Theorem C59_crash : forall K d tr c o f e c', plain_sets K -> bexec (okc K) d tr c -> apart tr ->
  names_in K (B_crash o f) -> bfire c (B_crash o f) = Some (e, c') ->
  (forall k, K k -> exists r, reads c' k r /\
     ((exists a b, tr = a ++ b /\ r = latest (held d) a k) \/ (exists v, o = Some (k, v) /\ r = Some v))) /\
  (exists L, length L <= 99 /\ forall k, K k -> ~ In k (map snd (dels tr)) -> (forall v, o <> Some (k, v)) -> ~ In k L ->
     reads c' k (latest (held d) tr k)).
Proof. exact c59_crash. Qed.
Print Assumptions C59_crash.

(** Whatever fails, dies or overlaps: a value read was there at the start or was handed to
    a Set of the same joined name. *)
Theorem C59_nothing_invented : forall d tr c, bexec any d tr c ->
  (forall k v, reads c k (Some v) -> held d k = Some v \/ handed tr k v) /\
  (forall t1 n k v t2, tr = t1 ++ BAns n k (Some (Some v)) :: t2 -> held d k = Some v \/ handed t1 k v).
Proof. intros d tr c H. split; [exact (fun k v => c59_handed d tr c k v H)|exact (fun t1 n k v t2 => c59_answer d tr c t1 n k v t2 H)]. Qed.
Print Assumptions C59_nothing_invented.

(** Whatever fails, dies or overlaps: a blob of the start is found unless it was deleted. *)
Theorem C59_not_missing : forall d tr c, bexec any d tr c -> forall t1 n k t2, tr = t1 ++ BAns n k (Some None) :: t2 ->
  held d k = None \/ exists i k', (fst k' ++ "/" ++ snd k' = fst k ++ "/" ++ snd k)%string /\ In (BDel i k') t1.
Proof. exact (fun d tr c H t1 n k t2 => c59_missing d tr c t1 n k t2 H). Qed.
Print Assumptions C59_not_missing.

(** ** what goes wrong *)
Fixpoint bplay (c : bcfg) (l : list bchoice) : option (list bevent * bcfg) :=
  match l with
  | [] => Some ([], c)
  | x :: l => match bfire c x with
              | Some (e, c1) => match bplay c1 l with Some (tr, c2) => Some (e :: tr, c2) | None => None end
              | None => None
              end
  end.
Lemma bplay_from ok d l : forall tr0 c tr c', bexec ok d tr0 c -> Forall ok l -> bplay c l = Some (tr, c') -> bexec ok d (tr0 ++ tr) c'.
Proof.
  induction l as [|x l IH]; intros tr0 c tr c' E F H; cbn in H; [injection H as <- <-; rewrite app_nil_r; exact E|].
  inversion F as [|? ? F1 F2]; subst. destruct (bfire c x) as [[e c1]|] eqn:Hf; [|discriminate]. destruct (bplay c1 l) as [[tr1 c2]|] eqn:Hp; [|discriminate].
  injection H as <- <-. change (e :: tr1) with ([e] ++ tr1). rewrite app_assoc. eapply IH; [econstructor; eassumption|exact F2|exact Hp].
Qed.
Lemma bplay_exec ok d l tr c' : Forall ok l -> bplay (bstart d) l = Some (tr, c') -> bexec ok d tr c'.
Proof. intros F H. apply (bplay_from ok d l [] (bstart d)); [constructor|exact F|exact H]. Qed.
Lemma bplay_see ok d l tr k r : Forall ok l ->
  option_map (fun p : list bevent * bcfg => (fst p, match q_get (b_q (snd p)) (bname k) with Some v => Some v | None => b_db (snd p) (bname k) end)) (bplay (bstart d) l) = Some (tr, r) ->
  exists c, bexec ok d tr c /\ reads c k r.
Proof.
  intros F H. destruct (bplay (bstart d) l) as [[t c]|] eqn:E; [|discriminate]. cbn [option_map fst snd] in H. injection H as <- <-.
  exists c. split; [eapply bplay_exec; eassumption|apply reads_iff; reflexivity].
Qed.
Lemma apart_nil : apart [].
Proof. intros a e b H; destruct a; discriminate. Qed.
Lemma apart_snoc a e : apart a -> clear_for a e -> apart (a ++ [e]).
Proof.
  intros H He a' e' b' E. destruct b' as [|y b' _] using rev_ind; [apply snoc_inv in E as (<- & <-); exact He|].
  rewrite app_comm_cons, app_assoc in E. apply snoc_inv in E as (-> & ->). apply (H a' e' b'). reflexivity.
Qed.
Fixpoint clears (a l : list bevent) : Prop := match l with [] => True | e :: l => clear_for a e /\ clears (a ++ [e]) l end.
Lemma clears_apart l : forall a, apart a -> clears a l -> apart (a ++ l).
Proof.
  induction l as [|e l IH]; intros a Ha Hl; [rewrite app_nil_r; exact Ha|]. destruct Hl as (He & Hl). change (e :: l) with ([e] ++ l). rewrite app_assoc.
  apply IH; [apply apart_snoc; assumption|exact Hl].
Qed.

Definition KS (k : skey) : Prop := fst k = "s"%string.
Lemma KS_ok : plain_sets KS.
Proof. intros k ->. cbn. intros [H|[]]. discriminate. Qed.
Definition ka : skey := ("s", "a")%string.
Definition kb : skey := ("s", "b")%string.
Definition empty : bdb := fun _ => None.
Definition smooth : fscript := mkF [] [] true.
Definition was_a : bdb := fun n => if string_dec n "s/a" then Some [x01] else None.

(** A transaction that is too big is committed and the error ignored: all calls and the
    Close report success, nothing is deleted, and a blob is gone. *)
Theorem C59_too_big_refuted : exists d tr c, bexec (fun x => names_in KS x /\ no_crash x) d tr c /\ Forall fine_event tr /\ dels tr = [] /\ apart tr /\
  (exists k v, KS k /\ latest (held d) tr k = Some v /\ reads c k None).
Proof.
  exists empty. eexists _, _. split.
  - apply (bplay_exec _ empty [B_set ka [x01] smooth; B_set kb [x02] smooth; B_close (mkF [] [TOk; TBig false true] true) true]).
    + repeat constructor.
    + vm_compute. reflexivity.
  - split; [repeat constructor|]. split; [reflexivity|]. split; [apply (clears_apart _ [] apart_nil); cbn; tauto|].
    exists kb, [x02]. split; [reflexivity|]. split; [reflexivity|]. apply reads_iff. reflexivity.
Qed.
Print Assumptions C59_too_big_refuted.

(** Close hides the error of its flush: the queued blobs are gone. *)
Theorem C59_close_refuted : exists d tr c, bexec (fun x => names_in KS x /\ no_crash x) d tr c /\ Forall fine_event tr /\ dels tr = [] /\ apart tr /\
  (exists f ok c0, f_commit f = false /\ f_sets f = [] /\ bfire c0 (B_close f ok) = Some (BClose true, c)) /\
  (exists k v, KS k /\ latest (held d) tr k = Some v /\ reads c k None).
Proof.
  exists empty. eexists _, _. split.
  - apply (bplay_exec _ empty [B_set ka [x01] smooth; B_close (mkF [] [] false) true]).
    + repeat constructor.
    + vm_compute. reflexivity.
  - split; [repeat constructor|]. split; [reflexivity|]. split; [apply (clears_apart _ [] apart_nil); cbn; tauto|]. split.
    + exists (mkF [] [] false), true, (bstart empty). repeat split.
    + exists ka, [x01]. split; [reflexivity|]. split; [reflexivity|]. apply reads_iff. reflexivity.
Qed.
Print Assumptions C59_close_refuted.

(** A Set whose flush fails takes with it blobs of Sets that had reported success. *)
Definition nth_key (i : nat) : skey := ("s", String (ascii_of_nat i) "")%string.
Definition many (m : nat) (f : fscript) : list bchoice := map (fun i => B_set (nth_key i) [x01] f) (seq 1 m).
Lemma many_ok m f : Forall (fun x => names_in KS x /\ no_crash x) (many m f).
Proof. apply Forall_map, Forall_forall. intros i _. split; [reflexivity|exact I]. Qed.
Definition done_many (m : nat) : list bevent := map (fun i => BSet (nth_key i) [x01] true) (seq 1 m).
Theorem C59_flush_refuted : exists d t k0 v0 c, bexec (fun x => names_in KS x /\ no_crash x) d (t ++ [BSet k0 v0 false]) c /\ Forall fine_event t /\ dels t = [] /\
  (exists k v, KS k /\ k <> k0 /\ latest (held d) t k = Some v /\ reads c k None).
Proof.
  destruct (bplay_see (fun x => names_in KS x /\ no_crash x) empty (many 100 (mkF [] [TOk; TOk; TErr] true)) (done_many 99 ++ [BSet (nth_key 100) [x01] false]) (nth_key 99) None) as (c & E & R);
    [apply many_ok|vm_compute; reflexivity|].
  exists empty, (done_many 99), (nth_key 100), [x01], c. split; [exact E|].
  split; [apply Forall_map, Forall_forall; reflexivity|]. split; [vm_compute; reflexivity|].
  exists (nth_key 99), [x01]. split; [reflexivity|]. split; [discriminate|]. split; [vm_compute; reflexivity|exact R].
Qed.
Print Assumptions C59_flush_refuted.

(** A Get during a Delete can return a value overwritten before both began. *)
Theorem C59_delete_refuted : exists d t1 n k v t2 c, bexec (okc KS) d (t1 ++ BAns n k (Some (Some v)) :: t2) c /\
  Forall fine_event (t1 ++ BAns n k (Some (Some v)) :: t2) /\ ~ current (held d) t1 n k (Some v).
Proof.
  exists was_a, [BSet ka [x02] true; BDel 0 ka; BAsk 1 ka], 1, ka, [x01], [BDeld 0 ka true]. eexists. split; [|split].
  - apply (bplay_exec _ was_a [B_set ka [x02] smooth; B_del ka; B_get ka; B_ans 1 true; B_rem 0 Good]).
    + repeat constructor.
    + vm_compute. reflexivity.
  - repeat constructor. discriminate.
  - intros (t1 & t2 & t3 & E & V).
    destruct t1 as [|e1 [|e2 [|e3 t1]]]; cbn in E; try discriminate; injection E as E.
    + subst e1 e2. destruct t2 as [|e t2]; [|discriminate]. discriminate V.
    + destruct t1; discriminate.
Qed.
Print Assumptions C59_delete_refuted.

(** A Delete that fails can bring back an overwritten value, for good. *)
Theorem C59_failed_delete_refuted : exists d tr n k v c, bexec (fun x => names_in KS x /\ no_crash x) d (tr ++ [BDel n k; BDeld n k false]) c /\
  Forall fine_event tr /\ apart (tr ++ [BDel n k; BDeld n k false]) /\ reads c k (Some v) /\ latest (held d) tr k <> Some v.
Proof.
  exists was_a, [BSet ka [x02] true], 0, ka, [x01]. eexists. split; [|split; [|split; [|split]]].
  - apply (bplay_exec _ was_a [B_set ka [x02] smooth; B_del ka; B_rem 0 FailBefore]).
    + repeat constructor.
    + vm_compute. reflexivity.
  - repeat constructor.
  - apply (clears_apart _ [] apart_nil). cbn. tauto.
  - apply reads_iff. reflexivity.
  - discriminate.
Qed.
Print Assumptions C59_failed_delete_refuted.

(** With slashes in set names, two keys are one. *)
Theorem C59_names_refuted : exists k k' d tr c, k <> k' /\ bexec (okc (fun x => x = k \/ x = k')) d tr c /\ apart tr /\ latest (held d) tr k = Some [x01] /\ reads c k (Some [x02]).
Proof.
  exists ("a", "b/c")%string, ("a/b", "c")%string, empty. eexists _, _. split; [discriminate|]. split; [|split; [|split]].
  - apply (bplay_exec _ empty [B_set ("a", "b/c")%string [x01] smooth; B_set ("a/b", "c")%string [x02] smooth]).
    + constructor; [|constructor; [|constructor]]; repeat split; [constructor|left; reflexivity|constructor|right; reflexivity].
    + vm_compute. reflexivity.
  - apply (clears_apart _ [] apart_nil). cbn. tauto.
  - reflexivity.
  - apply reads_iff. reflexivity.
Qed.
Print Assumptions C59_names_refuted.

(** ** a run meeting the hypotheses: a hundred Sets, the last of which flushes in two
    transactions, a read of the database overlapping a Set, a Delete, a Close *)
Definition two_txn : fscript := mkF [3; 1] [TOk; TOk; TBig true true] true.
Definition story : list bchoice :=
  many 100 two_txn ++ [B_get (nth_key 7); B_set (nth_key 7) [x02] smooth; B_ans 0 true; B_get (nth_key 7); B_del (nth_key 7); B_rem 1 Good; B_set (nth_key 8) [x03] smooth; B_close two_txn true; B_get (nth_key 8); B_ans 2 true; B_get (nth_key 7); B_ans 3 true].
Definition story_events : list bevent :=
  done_many 100 ++ [BAsk 0 (nth_key 7); BSet (nth_key 7) [x02] true; BAns 0 (nth_key 7) (Some (Some [x01])); BHit (nth_key 7) [x02]; BDel 1 (nth_key 7); BDeld 1 (nth_key 7) true;
    BSet (nth_key 8) [x03] true; BClose true; BAsk 2 (nth_key 8); BAns 2 (nth_key 8) (Some (Some [x03])); BAsk 3 (nth_key 7); BAns 3 (nth_key 7) (Some None)].
Example story_meets : exists c, bexec (okc KS) empty story_events c /\ apart story_events /\ dels story_events = [].
Proof.
  destruct (bplay_see (okc KS) empty story story_events (nth_key 7) None) as (c & E & _); [|vm_compute; reflexivity|].
  { apply Forall_app. split; [apply Forall_map, Forall_forall; intros i _|]; repeat first [left; reflexivity | right; reflexivity | constructor]. }
  exists c. split; [exact E|]. split.
  - unfold story_events. apply clears_apart.
    + assert (H : forall m, apart (done_many m) /\ dels (done_many m) = []).
      { induction m as [|m (IH & Hd)]; [split; [exact apart_nil|reflexivity]|]. unfold done_many in *. rewrite seq_S, map_app. cbn [map].
        split; [apply apart_snoc; [exact IH|]; cbn [clear_for]; rewrite Hd; intros []|]. rewrite dels_app. exact Hd. }
      apply H.
    + vm_compute. repeat split; try tauto; intros [H|[]]; discriminate.
  - vm_compute. reflexivity.
Qed.
(** after the hundredth Set nothing is lost in a crash, before it all of it *)
Definition after_crash (m : nat) (o : option (skey * bytes)) : list bool :=
  match bplay (bstart empty) (many m two_txn ++ [B_crash o None]) with
  | Some (_, c) => map (fun i => match b_db c (bname (nth_key i)) with Some _ => true | None => false end) (seq 1 100)
  | None => []
  end.
Example crash_after : after_crash 100 None = repeat true 100 /\ after_crash 99 (Some (ka, [x02])) = repeat false 100.
Proof. split; vm_compute; reflexivity. Qed.
