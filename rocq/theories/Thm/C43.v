(** C43: results of a bulk update. *)
From Coq Require Import Strings.String.
From Verif.Lib Require Import Prelude ListAux.
From Verif.Model Require Import Element Elements Segment List.
From Verif.Spec Require Import RankSpec QuerySpec HistorySpec AnswerSpec.
From Verif.Proof Require Import ListThm ResultP DropP ProgressP.
From Verif.Thm Require Import Sample.
Open Scope N_scope.

Theorem C43_results : forall merge split l m clk clki now sc elems sc1 sc2 radius r',
  reachable merge split l m -> op_ok merge split m (OUpdate clk clki now sc elems) ->
  let m' := spec_step m (OUpdate clk clki now sc elems) in
  ranking_of (sin m') r' ->
  let res := update_results sc1 sc2 l (update_elements clk clki now sc elems l) elems radius in
  NoDup (map (fun re => e_id (re_elem re)) res) /\
  (forall x, In x (map re_elem res) <-> In x (map (stamp clk) elems)) /\
  Forall (fun re => true_rank r' re /\ true_neighbours r' radius re /\
     match m (e_id (re_elem re)) with
     | None => re_before re = None
     | Some old => exists b i a s c, re_before re = Some b /\ re_elem b = old /\
         ss_segs (l_scores l) = a ++ s :: c /\ nth_error (sg_elems s) i = Some old /\
         re_top b = Z.of_nat i /\ re_bottom b = 0%Z /\ re_above b = [] /\ re_below b = []
     end) res.
Proof. exact update_results_spec. Qed.
Print Assumptions C43_results.

(** The previous rank is not the rank in the list before the update. *)
Theorem C43_before_rank_refuted : exists merge split l m clk clki now sc elems re b,
  reachable merge split l m /\ op_ok merge split m (OUpdate clk clki now sc elems) /\
  In re (update_results [] [] l (update_elements clk clki now sc elems l) elems 0) /\
  re_before re = Some b /\ ~ true_rank (stored_in l) b.
Proof.
  exists 2%nat, 4%nat, l0, m0, (fun _ => 200), (fun _ => 201), 202, [], batch1.
  pose (res := update_results [] [] l0 (update_elements (fun _ => 200) (fun _ => 201) 202 [] batch1 l0) batch1 0).
  assert (H : exists re b, In re res /\ re_before re = Some b /\ re_elem b = mkE 50 5 [] 0 100 /\ re_top b = 1%Z).
  { eexists _, _. split; [vm_compute; right; right; left; reflexivity|]. repeat split. }
  destruct H as (re & b & H1 & H2 & H3 & H4). exists re, b.
  split; [exact l0_reach|]. split; [exact up1_ok|]. split; [exact H1|]. split; [exact H2|].
  intros (i & Hi & Ht & _). rewrite H3 in Hi. rewrite H4 in Ht. assert (i = 1%nat) by lia. subst i. discriminate Hi.
Qed.
Print Assumptions C43_before_rank_refuted.

Example C43_ex : map (fun re => (e_id (re_elem re), re_top re, option_map (fun b => (re_top b, re_bottom b)) (re_before re)))
   (update_results [] [] l0 (update_elements (fun _ => 200) (fun _ => 201) 202 [] batch1 l0) batch1 0)
  = [(12, 3%Z, None); (11, 2%Z, None); (5, 4%Z, Some (1%Z, 0%Z)); (1, 11%Z, Some (0%Z, 0%Z))].
Proof. vm_compute. reflexivity. Qed.
