(** C29: paging forward over lists. *)
From Coq Require Import Strings.String Strings.Ascii.
From Verif.Lib Require Import Prelude ListAux Bytes.
From Verif.Model Require Import Lists.
From Verif.Spec Require Import ListsSpec.
From Verif.Proof Require Import ListsP ListsBack.
Open Scope nat_scope.

(** SortedIDsAfter returns the n smallest IDs after [from] in ascending order, and counts the
    others, whatever order the map enumerates the lists in. *)
Theorem C29_exact : forall enum from n L, distinct enum -> (0 < n)%Z -> ascending enum (precedes from) L ->
  let '(r, p) := sorted_after enum enum from n in
  map lid r = firstn (Z.to_nat n) L /\ incl r enum /\
  after p = length (skipn (Z.to_nat n) L) /\ before p + length L = length enum.
Proof. exact c29_exact. Qed.
Print Assumptions C29_exact.

(** If lists are added or deleted while the page is built, lists that are gone are left out. *)
Theorem C29_changing : forall enum now from n L, distinct enum -> (0 < n)%Z -> ascending enum (precedes from) L ->
  let '(r, p) := sorted_after enum now from n in
  members now (firstn (Z.to_nat n) L) r /\
  after p = length (skipn (Z.to_nat n) L) /\ before p + length L = length enum.
Proof. exact c29_page. Qed.
Print Assumptions C29_changing.

Theorem C29_none : forall enum now from n, (n <= 0)%Z -> sorted_after enum now from n = ([], Page 0 0).
Proof. exact c29_none. Qed.
Print Assumptions C29_none.

(** A client that follows the pages from the empty ID sees every list with a non-empty ID
    exactly once and in order, and reaches the end. *)
Theorem C29_walk : forall ls n R, distinct ls -> (0 < n)%Z -> walk ls n [] R ->
  ascending ls (fun id => id <> []) (map lid R) /\ incl R ls.
Proof. exact c29_walk. Qed.
Print Assumptions C29_walk.
Theorem C29_walk_ends : forall ls n, distinct ls -> (0 < n)%Z -> exists R, walk ls n [] R.
Proof. exact c29_walk_ends. Qed.
Print Assumptions C29_walk_ends.

Definition one (s : string) : lst := Lst (lit s) (lit "set") None 0.
Definition some : list lst := map one ["d"; "b"; "e"; "a"; "c"; "ab"]%string.
Example C29_ex1 : distinct some /\ ascending some (precedes (lit "a")) (map lit ["ab"; "b"; "c"; "d"; "e"]%string).
Proof.
  split.
  - unfold distinct. vm_compute. repeat (apply NoDup_cons; [intros H; repeat (destruct H as [H|H]; [discriminate|]); exact H|]). apply NoDup_nil.
  - split; [repeat (apply SSorted_cons || apply SSorted_nil || apply Forall_cons || apply Forall_nil); apply precedes_blt; reflexivity|].
    intros id. rewrite in_ids, precedes_blt. split.
    + intros H. cbn in H. repeat (destruct H as [H|H]; [subst id; split; [vm_compute; tauto|reflexivity]|]). destruct H.
    + intros (H & B). cbn in H. repeat (destruct H as [H|H]; [subst id; first [discriminate B|vm_compute; tauto]|]). destruct H.
Qed.
Example C29_ex2 : (let '(r, p) := sorted_after some some (lit "a") 3 in (map lid r, p)) = (map lit ["ab"; "b"; "c"]%string, Page 1 2).
Proof. vm_compute. reflexivity. Qed.
Example C29_ex3 : (let '(r, p) := sorted_after (rev some) some (lit "a") 1 in (map lid r, p)) = (map lit ["ab"]%string, Page 1 4).
Proof. vm_compute. reflexivity. Qed.
