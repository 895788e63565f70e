(** Concrete reachable lists used by the examples beside the theorems: merge size
    2, split size 4, ties, several segments, an empty segment. *)
From Coq Require Import Strings.String.
From Verif.Lib Require Import Prelude ListAux.
From Verif.Model Require Import Element Elements Segment List.
From Verif.Spec Require Import RankSpec QuerySpec HistorySpec AnswerSpec.
From Verif.Proof Require Import ElementP ListThm.
Open Scope N_scope.

Lemma distinct_by (e : elements) : nodup N.eq_dec (map e_id e) = map e_id e -> distinct_ids e.
Proof. intros H. unfold distinct_ids. rewrite <- H. apply NoDup_nodup. Qed.
Lemma forall_by {A} (p : A -> bool) (Q : A -> Prop) l : (forall x, p x = true -> Q x) -> forallb p l = true -> Forall Q l.
Proof. intros H F. apply Forall_forall. intros x Hx. apply H. rewrite forallb_forall in F. auto. Qed.
Definition okb (e : element) : bool :=
  (e_score e <=? max_u64) && (e_id e <=? max_u64) && (e_tie e <=? max_u32) && (e_upd e <=? max_u32).
Lemma okb_ok e : okb e = true -> elem_ok e.
Proof. unfold okb, elem_ok. rewrite !andb_true_iff, !N.leb_le. tauto. Qed.
Definition stb (e : element) : bool := okb e && (0 <? e_upd e) && (e_upd e <? max_u32).
Lemma stb_stored e : stb e = true -> stored e.
Proof. unfold stb. rewrite !andb_true_iff, !N.ltb_lt. intros ((H & ?) & ?). split; [apply okb_ok, H|split; assumption]. Qed.
Definition srb (e : element) : bool := okb e && (e_upd e <? max_u32).
Lemma srb_storable e : srb e = true -> storable e.
Proof. unfold srb. rewrite !andb_true_iff, !N.ltb_lt. intros (H & ?). split; [apply okb_ok, H|assumption]. Qed.

(** ten elements; 4 tied at score 50 *)
Definition batch0 : elements :=
  [mkE 90 1 [] 0 0; mkE 80 2 [] 7 0; mkE 80 3 [] 3 0; mkE 50 4 [] 0 0; mkE 50 5 [] 0 0; mkE 50 6 [] 0 0;
   mkE 50 7 [] 0 0; mkE 30 8 [] 0 0; mkE 20 9 [] 0 0; mkE 5 10 [] 0 0].
Definition done (o : outcome lst) : lst := match o with Done l => l | _ => init_empty 0 0 "" "" 0 end.
Definition l0 : lst := Eval vm_compute in done (new_list 2 4 "S" "I" 100 [] (fun _ => []) 0 batch0).
Definition m0 : smap := sputs sempty (map (restamp 100) batch0).
Lemma l0_eq : new_list 2 4 "S" "I" 100 [] (fun _ => []) 0 batch0 = Done l0.
Proof. vm_compute. reflexivity. Qed.
Lemma l0_reach : reachable 2 4 l0 m0.
Proof.
  refine (R_new 2 4 "S" "I" 100 [] (fun _ => []) 0 batch0 l0 _ _ _ _ _ _ _ _ l0_eq).
  - lia.
  - split; [lia|]. change (length batch0) with 10%nat. lia.
  - discriminate.
  - discriminate.
  - split; reflexivity.
  - apply distinct_by. vm_compute. reflexivity.
  - apply (forall_by okb); [exact okb_ok|vm_compute; reflexivity].
  - vm_compute. reflexivity.
Qed.

(** an update that moves 1 to the bottom, changes 5 in place and adds 11, 12 *)
Definition batch1 : elements := [mkE 3 1 [] 9 0; mkE 50 5 [] 1 150; mkE 60 11 [] 0 0; mkE 55 12 [] 0 0].
Definition up1 : op := OUpdate (fun _ => 200) (fun _ => 201) 202 [] batch1.
Definition m1 : smap := spec_step m0 up1.
Definition l1 : lst := Eval vm_compute in done (step l0 up1).
Lemma up1_ok : op_ok 2 4 m0 up1.
Proof.
  split; [|split; [|split; [|split]]].
  - apply distinct_by. vm_compute. reflexivity.
  - apply (forall_by srb); [exact srb_storable|vm_compute; reflexivity].
  - intros _. split; reflexivity.
  - intros _. split; reflexivity.
  - split; reflexivity.
Qed.
Lemma l1_reach : reachable 2 4 l1 m1.
Proof. apply (R_step 2 4 l0 m0 up1 l1 l0_reach up1_ok). vm_compute. reflexivity. Qed.

(** a delete that empties the last segment *)
Definition del2 : op := ODelete 300 [] [] [1; 8; 9; 10; 77].
Definition m2 : smap := spec_step m1 del2.
Definition l2 : lst := Eval vm_compute in done (step l1 del2).
Lemma del2_ok : op_ok 2 4 m1 del2.
Proof. split; [|split; reflexivity]. apply (forall_by (fun v => v <=? max_u64)); [intros x; apply N.leb_le|vm_compute; reflexivity]. Qed.
Lemma l2_reach : reachable 2 4 l2 m2.
Proof. apply (R_step 2 4 l1 m1 del2 l2 l1_reach del2_ok). vm_compute. reflexivity. Qed.

(** a split and merge pass *)
Definition l3 : lst := Eval vm_compute in done (split_pass true 400 l1).
Lemma l3_reach : reachable 2 4 l3 m1.
Proof. apply (R_step 2 4 l1 m1 (OSplit true 400) l3 l1_reach); [split; reflexivity|vm_compute; reflexivity]. Qed.

Example l0_shape : map (fun s => map e_id (sg_elems s)) (ss_segs (l_scores l0)) = [[1; 2; 3]; [4; 5; 6; 7]; [8; 9; 10]].
Proof. reflexivity. Qed.

Lemma not_ranked l : match l with x :: y :: _ => above y x | _ => false end = true -> ~ ranked l.
Proof.
  destruct l as [|x [|y l]]; try discriminate. intros H R. inversion R as [|? ? _ F]; subst. inversion F as [|? ? G _]; subst.
  apply above_spec in H. unfold Above in *. lia.
Qed.
Lemma only_last_zero_by l : forallb (fun s => (0 <? sg_min s) || (0 <? sg_mintie s)) (removelast l) = true -> only_last_zero l.
Proof.
  intros H a s t b ->. rewrite forallb_forall in H. specialize (H s). rewrite removelast_app in H by discriminate.
  rewrite in_app_iff in H. specialize (H (or_intror (or_introl eq_refl))). rewrite orb_true_iff, !N.ltb_lt in H. exact H.
Qed.
Ltac vms := lazymatch goal with |- _ /\ _ => split; [vms|vms] | |- _ => vm_compute; reflexivity end.
