(** C39: the token bucket. *)
From Verif.Lib Require Import Prelude ListAux.
From Verif.Model Require Import Small.
From Verif.Proof Require Import SmallP.
Open Scope nat_scope.

(** In every reachable state the tokens held and those in the channel add up to [n]. *)
Theorem C39_bound : forall n w b, breach n w b -> b_chan b + sum (b_held b) = n /\ length (b_held b) = w.
Proof. intros n w b H. exact (proj2 (c39_inv n w b H)). Qed.
Print Assumptions C39_bound.

(** A goroutine can get a token exactly when fewer than [n] are held. *)
Theorem C39_get : forall n w b g, breach n w b -> g < w ->
  (sum (b_held b) < n <-> exists b', bstep b b' /\ nth g (b_held b') 0 = S (nth g (b_held b) 0)).
Proof. exact c39_get. Qed.
Print Assumptions C39_get.

(** Releasing a held token never blocks. *)
Theorem C39_release : forall n w b g h, breach n w b -> nth_error (b_held b) g = Some (S h) ->
  exists b', bstep b b' /\ nth_error (b_held b') g = Some h.
Proof. exact c39_release. Qed.
Print Assumptions C39_release.

(** Two tokens, three goroutines: goroutines 0 and 2 hold one each, 1 must wait; after 0's
    release it does not. *)
Example C39_ex1 : breach 2 3 (mkB 2 0 [1; 0; 1]).
Proof.
  apply (Br_step _ _ (mkB 2 1 [1; 0; 0])); [|apply (B_get (mkB 2 1 [1; 0; 0]) 2 0 eq_refl); cbn; lia].
  apply (Br_step _ _ (mkB 2 2 [0; 0; 0])); [|apply (B_get (mkB 2 2 [0; 0; 0]) 0 0 eq_refl); cbn; lia].
  apply Br_new. reflexivity.
Qed.
Example C39_ex2 : ~ exists b', bstep (mkB 2 0 [1; 0; 1]) b' /\ nth 1 (b_held b') 0 = 1.
Proof. intros H. apply (C39_get 2 3 _ 1 C39_ex1) in H; [cbn in H; lia|lia]. Qed.
Example C39_ex3 : bstep (mkB 2 0 [1; 0; 1]) (mkB 2 1 [0; 0; 1]) /\ bstep (mkB 2 1 [0; 0; 1]) (mkB 2 0 [0; 1; 1]).
Proof.
  split; [apply (B_release (mkB 2 0 [1; 0; 1]) 0 0 eq_refl); cbn; lia|apply (B_get (mkB 2 1 [0; 0; 1]) 1 0 eq_refl); cbn; lia].
Qed.
