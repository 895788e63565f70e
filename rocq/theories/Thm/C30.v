(** C30: paging backward over lists. *)
From Coq Require Import Strings.String Strings.Ascii.
From Verif.Lib Require Import Prelude ListAux Bytes.
From Verif.Model Require Import Lists.
From Verif.Spec Require Import ListsSpec.
From Verif.Proof Require Import ListsP ListsBack.
Open Scope nat_scope.

(** For n >= 2, SortedIDsBefore counts exactly and returns the n largest IDs before [to] in
    ascending order, with one exception: if there are more than n and the map happens to
    enumerate these n before all others, the smallest of them is replaced by the next smaller
    one.  [D] is the enumeration order. *)
Theorem C30_page : forall enum to n D L, distinct enum -> (2 <= n)%Z ->
  ascending enum (fun id => precedes id to) L -> visited (fun id => precedes id to) enum D ->
  let '(r, p) := sorted_before enum enum to n in
  let m := Z.to_nat n in
  let k := length L - m in
  before p = k /\ after p + length L = length enum /\ incl r enum /\
  (length L <= m -> map lid r = L) /\
  (m < length L ->
     (Permutation (firstn m D) (skipn k L) /\ map lid r = firstn 1 (skipn (k - 1) L) ++ skipn (S k) L) \/
     (~ Permutation (firstn m D) (skipn k L) /\ map lid r = skipn k L)).
Proof. exact c30_page. Qed.
Print Assumptions C30_page.

(** For n = 1 the result is exact only if at most one ID precedes [to].  Otherwise it is the
    second or third closest, never the closest, and After counts one too many. *)
Theorem C30_one : forall enum to L, distinct enum -> ascending enum (fun id => precedes id to) L ->
  let '(r, p) := sorted_before enum enum to 1 in
  (length L <= 1 -> map lid r = L /\ before p = 0 /\ after p + length L = length enum) /\
  (2 <= length L -> before p = length L - 2 /\ after p + length L = S (length enum) /\
     (map lid r = firstn 1 (skipn (length L - 2) L) \/ map lid r = firstn 1 (skipn (length L - 3) L) /\ 3 <= length L)).
Proof. exact c30_one. Qed.
Print Assumptions C30_one.

Theorem C30_none : forall enum now to n, (n <= 0)%Z -> sorted_before enum now to n = ([], Page 0 0).
Proof. exact c30_none. Qed.
Print Assumptions C30_none.

Definition one (s : string) : lst := Lst (lit s) (lit "set") None 0.
Definition some : list lst := map one ["d"; "b"; "e"; "a"; "c"]%string.
Definition bad : list lst := map one ["c"; "d"; "b"; "e"; "a"]%string.
Definition ids_of (x : list lst * page) : list bytes * page := (map lid (fst x), snd x).

(** The documentation ("the last entry in the list will be the one preceding the provided
    ID", "n lists") does not hold: the page depends on the enumeration order of the map, skips
    a list, and with n = 1 it is not the preceding one. *)
Theorem C30_preceding_refuted : exists enum enum' to,
  distinct enum /\ Permutation enum enum' /\
  ids_of (sorted_before enum enum to 2) = (map lit ["c"; "d"]%string, Page 2 1) /\
  ids_of (sorted_before enum' enum' to 2) = (map lit ["b"; "d"]%string, Page 2 1) /\
  ids_of (sorted_before enum enum to 1) = (map lit ["c"]%string, Page 2 2).
Proof.
  exists some, bad, (lit "e"). split; [|split].
  - unfold distinct. vm_compute. repeat (apply NoDup_cons; [intros H; repeat (destruct H as [H|H]; [discriminate|]); exact H|]). apply NoDup_nil.
  - apply NoDup_Permutation.
    + unfold some. vm_compute. repeat (apply NoDup_cons; [intros H; repeat (destruct H as [H|H]; [discriminate|]); exact H|]). apply NoDup_nil.
    + unfold bad. vm_compute. repeat (apply NoDup_cons; [intros H; repeat (destruct H as [H|H]; [discriminate|]); exact H|]). apply NoDup_nil.
    + intros x. cbn. tauto.
  - vm_compute. auto.
Qed.
Print Assumptions C30_preceding_refuted.

Example C30_ex1 : ids_of (sorted_before some some (lit "d") 3) = (map lit ["a"; "b"; "c"]%string, Page 0 2) /\
  ids_of (sorted_before some some [] 3) = ([], Page 0 5).
Proof. vm_compute. auto. Qed.
Example C30_ex2 : ascending some (fun id => precedes id (lit "c")) (map lit ["a"; "b"]%string) /\
  visited (fun id => precedes id (lit "c")) some (map lit ["b"; "a"]%string).
Proof.
  split; [split|].
  - repeat (apply SSorted_cons || apply SSorted_nil || apply Forall_cons || apply Forall_nil); apply precedes_blt; reflexivity.
  - intros id. rewrite in_ids, precedes_blt. split.
    + intros H. cbn in H. repeat (destruct H as [H|H]; [subst id; split; [vm_compute; tauto|reflexivity]|]). destruct H.
    + intros (H & B). cbn in H. repeat (destruct H as [H|H]; [subst id; first [discriminate B|vm_compute; tauto]|]). destruct H.
  - unfold some. cbn [map]. apply visited_out; [rewrite precedes_blt; discriminate|].
    apply (visited_in _ (one "b")); [apply precedes_blt; reflexivity|]. apply visited_out; [rewrite precedes_blt; discriminate|].
    apply (visited_in _ (one "a")); [apply precedes_blt; reflexivity|]. apply visited_out; [rewrite precedes_blt; discriminate|]. apply visited_nil.
Qed.
