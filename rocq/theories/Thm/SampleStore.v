(** A concrete execution of two lists over one store and cache, used by the examples. *)
From Coq Require Import Strings.String Strings.Ascii.
From Verif.Lib Require Import Prelude ListAux Bytes.
From Verif.Model Require Import Element Elements Segment List Msgp Codec Keys Storage.
From Verif.Spec Require Import RankSpec QuerySpec HistorySpec AnswerSpec KeySpec CodecSpec StorageSpec.
From Verif.Proof Require Import ListThm HistoryP.
From Verif.Thm Require Import Sample.
Open Scope N_scope.

Definition go (cfg : bool) (w : world) (a : act) : world := match act_on cfg w a with Some w' => w' | None => w end.
Definition goes (cfg : bool) (w : world) (a : act) : bool := match act_on cfg w a with Some _ => true | None => false end.
Lemma go_eq cfg w a : goes cfg w a = true -> act_on cfg w a = Some (go cfg w a).
Proof. unfold goes, go. destruct (act_on cfg w a); [reflexivity|discriminate]. Qed.

Definition short_by (l : lst) : bool := forallb (fun x => N.of_nat (length (e_payload x)) <? 2 ^ 32) (stored_in l) && (N.of_nat (length (stored_in l)) <? 2 ^ 32).
Lemma fits_by g s l m : reachable g s l m -> short_by l = true -> map_fits m.
Proof.
  intros HR H. apply andb_true_iff in H as (H1 & H2). apply N.ltb_lt in H2. rewrite forallb_forall in H1.
  pose proof (reach_ranking _ _ _ _ HR) as Hr. split.
  - intros x Hx. apply Hr in Hx. specialize (H1 x Hx). apply N.ltb_lt in H1. exact H1.
  - intros r Hr'. rewrite (ranking_unique _ _ _ Hr' Hr). exact H2.
Qed.
Lemma plain_by s : s <> ""%string ->
  forallb (fun a => let n := N_of_ascii a in ((48 <=? n) && (n <=? 57)) || ((65 <=? n) && (n <=? 90)) || ((97 <=? n) && (n <=? 122)))%bool (lit s) = true ->
  N.of_nat (String.length s) < 2 ^ 32 -> plain s.
Proof.
  intros H1 H2 H3. split; [exact H1|]. split; [|exact H3]. apply Forall_forall. intros a Ha. rewrite forallb_forall in H2.
  specialize (H2 a Ha). cbn zeta in H2. rewrite !orb_true_iff, !andb_true_iff, !N.leb_le in H2. unfold letter_or_digit. cbn zeta. tauto.
Qed.

(** the store has other data and the lists have a cache *)
Definition foreign : bytes := lit "server-config".
Definition w0 : world := mkW (put (fun _ => None) foreign (Some [])) (fun _ => None) [].
Definition no_ord : nat -> nat -> list nat := fun _ _ => [].
Definition new1 : act := ANew 2 4 "S" "I" 100 [] (fun _ => []) 0 batch0 no_ord.
Definition batchB : elements := [mkE 70 1 [] 0 0; mkE 60 4 [] 0 0; mkE 10 9 [] 0 0].
Definition new2 : act := ANew 2 4 "T" "J" 110 [] (fun _ => []) 0 batchB no_ord.
Definition upd : act := AOp 0 up1 no_ord.
Definition rep5 : op := ORepair "S2" "I2" 500 (fun _ => []) [] [] (fun _ => []) 0.
Definition rep : act := AOp 0 rep5 no_ord.
Definition w1 := go true w0 new1.
Definition w2 := go true w1 new2.
Definition w3 := go true w2 upd.
Definition w4 := go true w3 (AFill 1 false 0).
Definition w4e := go true w4 (AEvict (fun _ => false)).
Definition w5 := go true w4e rep.

Definition mB : smap := sputs sempty (map (restamp 110) batchB).
Definition lB : lst := Eval vm_compute in done (new_list 2 4 "T" "J" 110 [] (fun _ => []) 0 batchB).
Lemma lB_reach : reachable 2 4 lB mB.
Proof.
  assert (E : new_list 2 4 "T" "J" 110 [] (fun _ => []) 0 batchB = Done lB) by (vm_compute; reflexivity).
  refine (R_new 2 4 "T" "J" 110 [] (fun _ => []) 0 batchB lB _ _ _ _ _ _ _ _ E).
  - lia.
  - split; [lia|]. change (length batchB) with 3%nat. lia.
  - discriminate.
  - discriminate.
  - split; reflexivity.
  - apply distinct_by. vm_compute. reflexivity.
  - apply (forall_by okb); [exact okb_ok|vm_compute; reflexivity].
  - vm_compute. reflexivity.
Qed.
Lemma fit0 : map_fits m0.
Proof. apply (fits_by _ _ _ _ l0_reach). vm_compute. reflexivity. Qed.
Lemma fit1 : map_fits m1.
Proof. apply (fits_by _ _ _ _ l1_reach). vm_compute. reflexivity. Qed.
Lemma fitB : map_fits mB.
Proof. apply (fits_by _ _ _ _ lB_reach). vm_compute. reflexivity. Qed.

Ltac plain_name := apply plain_by; [discriminate|reflexivity|reflexivity].
Lemma new1_ok : act_ok w0 [] new1.
Proof.
  split; [lia|]. split; [split; [lia|]; change (length batch0) with 10%nat; lia|]. split; [split; reflexivity|].
  split; [apply distinct_by; vm_compute; reflexivity|]. split; [apply (forall_by okb); [exact okb_ok|vm_compute; reflexivity]|].
  split; [vm_compute; reflexivity|].
  split; [split; [plain_name|split; [intros []|intros id; reflexivity]]|].
  split; [split; [plain_name|split; [intros []|intros id; reflexivity]]|]. discriminate.
Qed.
Lemma runs1 : runs true w1 [(2%nat, 4%nat, m0)].
Proof.
  apply (W_act true w0 [] new1 w1 (W_start _ _ _) new1_ok); [apply go_eq; vm_compute; reflexivity|]. constructor; [exact fit0|constructor].
Qed.
Lemma new2_ok : act_ok w1 [(2%nat, 4%nat, m0)] new2.
Proof.
  split; [lia|]. split; [split; [lia|]; change (length batchB) with 3%nat; lia|]. split; [split; reflexivity|].
  split; [apply distinct_by; vm_compute; reflexivity|]. split; [apply (forall_by okb); [exact okb_ok|vm_compute; reflexivity]|].
  split; [vm_compute; reflexivity|].
  split; [split; [plain_name|split; [vm_compute; intuition discriminate|intros id; vm_compute; reflexivity]]|].
  split; [split; [plain_name|split; [vm_compute; intuition discriminate|intros id; vm_compute; reflexivity]]|]. discriminate.
Qed.
Lemma runs2 : runs true w2 [(2%nat, 4%nat, m0); (2%nat, 4%nat, mB)].
Proof.
  apply (W_act true w1 _ new2 w2 runs1 new2_ok); [apply go_eq; vm_compute; reflexivity|].
  constructor; [exact fit0|]. constructor; [exact fitB|constructor].
Qed.
Lemma upd_ok : act_ok w2 [(2%nat, 4%nat, m0); (2%nat, 4%nat, mB)] upd.
Proof. split; [|exact I]. intros g s m E. injection E as <- <- <-. exact up1_ok. Qed.
Definition ms3 : list entry := [(2%nat, 4%nat, m1); (2%nat, 4%nat, mB)].
Lemma fits3 : Forall (fun x : entry => map_fits (snd x)) ms3.
Proof. constructor; [exact fit1|]. constructor; [exact fitB|constructor]. Qed.
Lemma runs3 : runs true w3 ms3.
Proof. apply (W_act true w2 _ upd w3 runs2 upd_ok); [apply go_eq; vm_compute; reflexivity|exact fits3]. Qed.
Lemma runs4 : runs true w4 ms3.
Proof. apply (W_act true w3 ms3 (AFill 1 false 0) w4 runs3 I); [apply go_eq; vm_compute; reflexivity|exact fits3]. Qed.
Lemma runs4e : runs true w4e ms3.
Proof. apply (W_act true w4 ms3 (AEvict (fun _ => false)) w4e runs4 I); [reflexivity|exact fits3]. Qed.
Lemma rep_ok : act_ok w4e ms3 rep.
Proof.
  split.
  - intros g s m E. injection E as <- <- <-. split; [discriminate|]. split; [discriminate|]. split; [split; reflexivity|].
    intros r Hr. rewrite (ranking_unique _ _ _ Hr (reach_ranking _ _ _ _ l1_reach)).
    replace (length (stored_in l1)) with 12%nat by (vm_compute; reflexivity).
    split; [reflexivity|]. split; lia.
  - split; [split; [plain_name|split; [vm_compute; intuition discriminate|intros id; reflexivity]]|].
    split; [split; [plain_name|split; [vm_compute; intuition discriminate|intros id; reflexivity]]|]. discriminate.
Qed.
Lemma runs5 : runs true w5 ms3.
Proof. apply (W_act true w4e ms3 rep w5 runs4e rep_ok); [apply go_eq; vm_compute; reflexivity|exact fits3]. Qed.
