(** C72: the stores at the bottom. *)
From Coq Require Import Strings.String Strings.Ascii Permutation Sorted.
From Verif.Lib Require Import Prelude ListAux.
From Verif.Model Require Import Keys PlainStore.
From Verif.Spec Require Import KeySpec PlainSpec.
From Verif.Proof Require Import PlainP.
Open Scope N_scope.

Definition plain_call (c : scall) : Prop := match c with PUsage _ | PDir _ | PCreate _ _ _ => False | _ => True end.
Definition mem_call (c : scall) : Prop := match c with PCreate _ _ _ => False | _ => True end.

(** no slashes in sets and keys: all answers of the memory store, also of Usage and Dir, are those of a map *)
Theorem C72_memory : forall cs, (forall c, In c cs -> mem_call c) ->
  (forall c s k, In c cs -> names c s k -> no_slash s /\ no_slash k) ->
  all_fit mem_fits [] cs (snd (run_store mem_step mem_new cs)).
Proof. exact c72_mem. Qed.
Print Assumptions C72_memory.

(** Get, Set and Delete as long as no two pairs in use are joined to the same string *)
Theorem C72_joined : forall cs, (forall c, In c cs -> plain_call c) ->
  (forall c s k c' s' k', In c cs -> names c s k -> In c' cs -> names c' s' k' -> s ++ "/"%char :: k = s' ++ "/"%char :: k' -> s = s' /\ k = k') ->
  all_fit mem_fits [] cs (snd (run_store mem_step mem_new cs)).
Proof. exact c72_calls. Qed.
Print Assumptions C72_joined.

(** pairs clash only if both a set and a key have a slash *)
Theorem C72_clash : forall s k s' k', s ++ "/"%char :: k = s' ++ "/"%char :: k' -> (s, k) <> (s', k') ->
  (In "/"%char s /\ In "/"%char k') \/ (In "/"%char s' /\ In "/"%char k).
Proof. exact c72_clash. Qed.
Print Assumptions C72_clash.

(** the keys that the server uses have none, so whatever sets lists are given the memory store is a map *)
Theorem C72_server : forall cs, (forall c, In c cs -> plain_call c) ->
  (forall c s k, In c cs -> names c s k -> exists r, generated_record r /\ k = record_key r) ->
  all_fit mem_fits [] cs (snd (run_store mem_step mem_new cs)).
Proof. exact c72_records. Qed.
Print Assumptions C72_server.

(** Dir panics exactly if some blob has another slash in its set or key, and leaves the store locked *)
Theorem C72_dir : forall cs s, let m := fst (run_store mem_step mem_new cs) in m_held m = false ->
  (snd (mem_step m (PDir s)) = APanic <->
   exists k v, In (k, v) (m_blobs m) /\ (2 <= length (filter (Ascii.eqb "/"%char) k))%nat) /\
  (snd (mem_step m (PDir s)) = APanic -> m_held (fst (mem_step m (PDir s))) = true).
Proof. exact c72_dir. Qed.
Print Assumptions C72_dir.
(** every call that comes to the lock then waits for ever *)
Theorem C72_stuck : forall cs m, m_held m = true -> fst (run_store mem_step m cs) = m /\
  Forall2 (fun c a => match c with
                      | PSet s k v => (mem_takes s k v -> a = AHang) /\ a <> AOk
                      | PCreate _ _ _ => True
                      | _ => a = AHang
                      end) cs (snd (run_store mem_step m cs)).
Proof. exact c72_stuck. Qed.
Print Assumptions C72_stuck.

(** the Bolt store is a map for all sets and keys; Create refuses a key that has a value *)
Theorem C72_bolt : forall refuses cs,
  all_fit (bolt_fits (fun s k v => refuses s k v = false)) [] cs (snd (run_store (bolt_step refuses) bolt_new cs)).
Proof. exact c72_bolt. Qed.
Print Assumptions C72_bolt.

(** the test store: a call goes through if all checks let it; the newest is asked first and those behind one that fails are not asked *)
Theorem C72_checks : forall l s k,
  let called c := mkCheck (k_fails c) (S (k_calls c)) in
  (snd (ask l s k) = true /\ fst (ask l s k) = map called l /\ forall c, In c l -> k_fails c (k_calls c) s k = false) \/
  (exists a c b, l = a ++ c :: b /\ (forall x, In x a -> k_fails x (k_calls x) s k = false) /\ k_fails c (k_calls c) s k = true /\
     snd (ask l s k) = false /\ fst (ask l s k) = map called (a ++ [c]) ++ b).
Proof. exact c72_ask. Qed.
Print Assumptions C72_checks.
(** with TestFailAfterN exactly one call fails, with TestFailPct those whose number is below *)
Theorem C72_after : forall n cs, ask_all [fail_after_n n] cs = map (fun j => negb (Nat.eqb j n)) (seq 0 (length cs)).
Proof. intros. exact (c72_after n cs 0). Qed.
Print Assumptions C72_after.
Theorem C72_pct : forall n rng cs, ask_all [fail_pct n rng] cs = map (fun j => n <=? rng j mod 100) (seq 0 (length cs)).
Proof. intros. exact (c72_pct n rng cs 0). Qed.
Print Assumptions C72_pct.

Definition calls72 : list scall :=
  [PSet (lit "s") (lit "ab") (lit "xyz"); PSet (lit "t") (lit "ab") (lit "u"); PSet (lit "s") (lit "cd") []; PGet (lit "s") (lit "ab");
   PDel (lit "s") (lit "ab"); PGet (lit "s") (lit "ab"); PSet (lit "s") (lit "a") (lit "x"); PUsage (lit "s"); PSet (lit "s") (lit "aa") (lit "1234567890"); PDir (lit "s")].
Example C72_memory_ex : snd (run_store mem_step mem_new calls72) =
  [AOk; AOk; AOk; AVal (lit "xyz"); AOk; ANotFound; AShort; AUse 1 0; AOk;
   ADir [lit "aa: 10 bytes [r:0, w:1, d:0]"; lit "cd: 0 bytes [r:0, w:1, d:0]"]].
Proof. vm_compute. reflexivity. Qed.
Example C72_memory_hyp : (forall c, In c calls72 -> mem_call c) /\ (forall c s k, In c calls72 -> names c s k -> no_slash s /\ no_slash k).
Proof.
  split; [intros c H|intros c s k H N]; repeat (destruct H as [<-|H]; [|]); try destruct H; try exact Logic.I; try contradiction; destruct N as (<- & <-);
    split; cbn; intros C; repeat (destruct C as [C|C]; [discriminate|]); contradiction.
Qed.
Definition bolt_calls : list scall :=
  [PCreate (lit "a/b") (lit "c") (lit "1"); PSet (lit "a") (lit "b/c") (lit "2"); PCreate (lit "a/b") (lit "c") (lit "3"); PGet (lit "a/b") (lit "c");
   PDel (lit "a/b") (lit "c"); PGet (lit "a") (lit "b/c"); PCreate [] (lit "c") []].
Example C72_bolt_ex : snd (run_store (bolt_step (fun s k _ => beq s [] || beq k [])) bolt_new bolt_calls) = [AOk; AOk; AExists; AVal (lit "1"); AOk; AVal (lit "2"); ARefused].
Proof. vm_compute. reflexivity. Qed.
Example C72_checks_ex : let k := (lit "s", lit "k") in ask_all [fail_after_n 1; fail_after_n 1] [k; k; k; k] = [true; false; false; true].
Proof. reflexivity. Qed.

(** sets and keys with slashes: one blob is taken for another *)
Theorem C72_clash_refuted : exists s k s' k' v, (s, k) <> (s', k') /\
  snd (run_store mem_step mem_new [PSet s k v; PGet s' k']) = [AOk; AVal v].
Proof. exists (lit "a/b"), (lit "cc"), (lit "a"), (lit "b/cc"), (lit "v"). split; [discriminate|vm_compute; reflexivity]. Qed.
Print Assumptions C72_clash_refuted.
(** Usage counts blobs of other sets *)
Theorem C72_usage_refuted : exists s k v s', s <> s' /\ snd (run_store mem_step mem_new [PSet s k v; PUsage s']) = [AOk; AUse 1 (length v)].
Proof. exists (lit "a/b"), (lit "cc"), (lit "v"), (lit "a"). split; [discriminate|vm_compute; reflexivity]. Qed.
Print Assumptions C72_usage_refuted.
(** one list with a slash in its set: Dir of any set panics, and the server waits for ever at its next access *)
Theorem C72_dir_refuted : exists s k v s' k', generated_record (RSegments k) /\ k = record_key (RSegments k) /\
  snd (run_store mem_step mem_new [PSet s k v; PDir s'; PGet s k; PGet s' k']) = [AOk; APanic; AHang; AHang].
Proof.
  exists (lit "a/b"), (rand_string [1; 2; 3; 4; 5; 6; 7; 8] 1600000000000000000%Z), (lit "v"), (lit "x"), (lit "kk").
  split; [exists [1; 2; 3; 4; 5; 6; 7; 8], 1600000000000000000%Z; split; reflexivity|]. split; [reflexivity|vm_compute; reflexivity].
Qed.
Print Assumptions C72_dir_refuted.
(** "will fail after N calls": the calls after the one that fails succeed *)
Theorem C72_after_refuted : exists n cs, nth n (ask_all [fail_after_n n] cs) true = false /\ nth (S n) (ask_all [fail_after_n n] cs) false = true.
Proof. exists 1%nat, [(lit "s", lit "k"); (lit "s", lit "k"); (lit "s", lit "k")]. split; reflexivity. Qed.
Print Assumptions C72_after_refuted.
