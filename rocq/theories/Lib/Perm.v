(** Schedules denote exactly the permutations. *)
From Verif.Lib Require Import Prelude ListAux.

Lemma del_nth_perm {A} c (l : list A) d :
  c < length l -> Permutation (nth c l d :: del_nth c l) l.
Proof.
  revert c; induction l as [|y r IH]; cbn; intros c Hc; [lia|].
  destruct c as [|c]; cbn; [reflexivity|].
  rewrite perm_swap. rewrite IH; [reflexivity|lia].
Qed.

Lemma del_nth_length {A} c (l : list A) : c < length l -> S (length (del_nth c l)) = length l.
Proof.
  revert c; induction l as [|y r IH]; cbn; intros c Hc; [lia|].
  destruct c as [|c]; cbn; [reflexivity|]. rewrite IH; lia.
Qed.

Lemma permute_aux_perm {A} f : forall sc (l : list A), Permutation (permute_aux f sc l) l.
Proof.
  induction f as [|f IH]; cbn; intros sc l; [reflexivity|].
  destruct l as [|x r]; [reflexivity|].
  rewrite IH. apply del_nth_perm. destruct sc as [|c sc]; cbn [length]; [lia|].
  apply Nat.mod_upper_bound. lia.
Qed.

Lemma permute_perm {A} sc (l : list A) : Permutation (permute sc l) l.
Proof. apply permute_aux_perm. Qed.

Lemma permute_aux_complete {A} : forall (m l : list A) f,
  length l <= f -> Permutation m l -> exists sc, permute_aux f sc l = m.
Proof.
  induction m as [|x m IH]; intros l f Hf Hp.
  - apply Permutation_nil in Hp. subst l. exists []. destruct f; reflexivity.
  - assert (Hx : In x l) by (eapply Permutation_in; [exact Hp|left; reflexivity]).
    apply (In_nth _ _ x) in Hx as (c & Hc & Hn).
    destruct l as [|y r]; [cbn in Hc; lia|].
    destruct f as [|f]; [cbn in Hf; lia|].
    destruct (IH (del_nth c (y :: r)) f) as [sc Hsc].
    + pose proof (del_nth_length c (y :: r) Hc). lia.
    + apply (Permutation_cons_inv (a := x)). etransitivity; [exact Hp|].
      pose proof (del_nth_perm c (y :: r) x Hc) as Hd. rewrite Hn in Hd. symmetry; exact Hd.
    + exists (c :: sc). cbn [permute_aux].
      rewrite (Nat.mod_small c) by exact Hc.
      rewrite Hsc. f_equal. rewrite <- Hn. apply nth_indep. exact Hc.
Qed.

Lemma permute_complete {A} (m l : list A) :
  Permutation m l -> exists sc, permute sc l = m.
Proof. intros H. unfold permute. apply permute_aux_complete; [lia|exact H]. Qed.

Lemma permute_In {A} sc (l : list A) x : In x (permute sc l) <-> In x l.
Proof. split; apply Permutation_in; [|symmetry]; apply permute_perm. Qed.
