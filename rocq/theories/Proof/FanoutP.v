(** The goroutines of one cross-list request (Model/Fanout.v). *)
From Coq Require Import Strings.String Strings.Ascii.
From Verif.Lib Require Import Prelude ListAux Bytes.
From Verif.Model Require Import Fanout.
From Verif.Spec Require Import FanoutSpec.
From Verif.Proof Require Import LocksP.
Open Scope nat_scope.

Definition b2n (b : bool) : nat := if b then 1 else 0.
Definition cnt {A} (f : A -> bool) (l : list A) : nat := length (filter f l).
Arguments cnt : simpl never.
Lemma cnt_app {A} (f : A -> bool) a b : cnt f (a ++ b) = cnt f a + cnt f b.
Proof. unfold cnt. rewrite filter_app, app_length. reflexivity. Qed.
Lemma cnt_one {A} (f : A -> bool) x : cnt f [x] = b2n (f x).
Proof. unfold cnt. cbn. destruct (f x); reflexivity. Qed.
Lemma cnt_upd {A} (f : A -> bool) y : forall l k x, nth_error l k = Some x ->
  cnt f (upd_nth k (fun _ => y) l) + b2n (f x) = cnt f l + b2n (f y).
Proof.
  induction l as [|a l IH]; intros k x H; destruct k; cbn in H; try discriminate.
  - injection H as <-. unfold cnt. cbn. destruct (f a), (f y); cbn; lia.
  - specialize (IH k x H). unfold cnt in *. cbn. destruct (f a); cbn; lia.
Qed.
Lemma map_fst_upd {A B} (b : B) : forall (l : list (A * B)) k a b0, nth_error l k = Some (a, b0) ->
  map fst (upd_nth k (fun _ => (a, b)) l) = map fst l.
Proof.
  induction l as [|x l IH]; intros k a b0 H; destruct k; cbn in H; try discriminate; cbn.
  - injection H as ->. reflexivity.
  - f_equal. eapply IH; eauto.
Qed.
Lemma cnt_le {A} (f : A -> bool) l : cnt f l <= length l.
Proof. unfold cnt. induction l as [|a l IH]; cbn; [lia|]. destruct (f a); cbn; lia. Qed.
Lemma cnt_all {A} (f : A -> bool) : forall l, cnt f l = length l -> forall x, In x l -> f x = true.
Proof.
  induction l as [|a l IH]; intros H x I; [destruct I|].
  pose proof (cnt_le f l) as B. unfold cnt in *. cbn in H. destruct (f a) eqn:F; cbn in H; [|lia].
  destruct I as [<-|I]; [exact F|]. apply IH; [lia|exact I].
Qed.
Lemma cnt_full {A} (f : A -> bool) : forall l, (forall x, In x l -> f x = true) -> cnt f l = length l.
Proof.
  induction l as [|a l IH]; intros H; [reflexivity|]. unfold cnt in *. cbn. rewrite (H a (or_introl eq_refl)). cbn.
  rewrite IH; [reflexivity|]. intros x I. apply H. right. exact I.
Qed.
Lemma cnt_zero {A} (f : A -> bool) : forall l, (forall x, In x l -> f x = false) -> cnt f l = 0.
Proof.
  induction l as [|a l IH]; intros H; [reflexivity|]. unfold cnt in *. cbn. rewrite (H a (or_introl eq_refl)).
  apply IH. intros x I. apply H. right. exact I.
Qed.

Lemma fset_same {A} (m : bytes -> option A) k v : fset m k v k = Some v.
Proof. unfold fset. rewrite beq_refl. reflexivity. Qed.
Lemma fset_other {A} (m : bytes -> option A) k v x : k <> x -> fset m k v x = m x.
Proof. unfold fset. intros H. destruct (beq k x) eqn:B; [apply beq_true in B; contradiction|reflexivity]. Qed.

Section P.
  Variables (L R E : Type) (c : fcfg L R E) (ids : list bytes) (ls : bytes -> option L).
  Hypothesis nodup : NoDup ids.
  Notation state := (fstate L R E).
  Notation after := (list_after (c_fn c) ls).
  Notation succ := (success_of (c_fn c) ls).
  Notation fail := (error_of (c_fn c) ls).

  Definition gone (p : bytes * wpc R E) : bool := match snd p with W_gone => true | _ => false end.
  Definition pc_ok (s : state) (id : bytes) (pc : wpc R E) : Prop :=
    match pc with
    | W_new => f_lists s id = ls id /\ f_ok s id = None /\ f_er s id = None
    | W_got (inl x) => f_lists s id = after id /\ f_ok s id = None /\ f_er s id = None /\ succ id = Some x /\ fail id = None
    | W_got (inr e) => f_lists s id = after id /\ f_ok s id = None /\ f_er s id = None /\ succ id = None /\ fail id = Some e
    | _ => f_lists s id = after id /\ f_ok s id = succ id /\ f_er s id = fail id
    end.
  Definition main_ok (s : state) (rest : list bytes) : Prop :=
    match f_main s with
    | M_loop r => rest = r
    | M_take id r => rest = id :: r
    | M_wait => rest = []
    | M_ret true => rest = [] /\ f_wg s = 0
    | M_ret false => f_cancelled s = true
    end.
  Record finv (s : state) : Prop := FI {
    I_ids : exists rest, ids = map fst (f_work s) ++ rest /\ main_ok s rest;
    I_wg : f_wg s + cnt gone (f_work s) = length ids;
    I_tok : c_limit c <> 0 -> f_tokens s + cnt working (f_work s) = c_limit c;
    I_work : forall k id pc, nth_error (f_work s) k = Some (id, pc) -> pc_ok s id pc;
    I_rest : forall id, ~ In id (map fst (f_work s)) -> f_lists s id = ls id /\ f_ok s id = None /\ f_er s id = None
  }.

  Lemma finv_init : finv (finit c ids ls).
  Proof.
    constructor; cbn.
    - exists ids. split; [reflexivity|]. reflexivity.
    - unfold cnt. cbn. lia.
    - intros _. unfold cnt. cbn. lia.
    - intros k id pc H. destruct k; discriminate.
    - intros id _. auto.
  Qed.

  Lemma work_nodup s : finv s -> NoDup (map fst (f_work s)).
  Proof.
    intros I. destruct (I_ids s I) as (rest & E' & _). pose proof nodup as N. rewrite E' in N.
    clear E'. induction (map fst (f_work s)) as [|a l IH]; [constructor|]. cbn in N. inversion N as [|? ? H1 H2]; subst.
    constructor; [|auto]. intros H. apply H1. apply in_or_app. auto.
  Qed.
  Lemma nodup_nth : forall (l : list (bytes * wpc R E)), NoDup (map fst l) -> forall j k id p q,
    nth_error l j = Some (id, p) -> nth_error l k = Some (id, q) -> j = k.
  Proof.
    induction l as [|a l IH]; intros N j k id p q H1 H2; [destruct j; discriminate|].
    cbn in N. inversion N as [|? ? N1 N2]; subst.
    destruct j, k; cbn in H1, H2; [reflexivity| | |].
    - injection H1 as ->. exfalso. apply N1. apply nth_error_In in H2. apply (in_map fst) in H2. exact H2.
    - injection H2 as ->. exfalso. apply N1. apply nth_error_In in H1. apply (in_map fst) in H1. exact H1.
    - f_equal. eapply IH; eauto.
  Qed.

  (** a step of one goroutine touches the entries of its own list only *)
  Lemma keep_work s s' k id pc pc' : finv s -> nth_error (f_work s) k = Some (id, pc) ->
    f_work s' = upd_nth k (fun _ => (id, pc')) (f_work s) ->
    (forall x, id <> x -> f_lists s' x = f_lists s x /\ f_ok s' x = f_ok s x /\ f_er s' x = f_er s x) ->
    pc_ok s' id pc' -> f_main s' = f_main s -> f_cancelled s' = f_cancelled s ->
    (forall rest, main_ok s rest -> main_ok s' rest) ->
    f_wg s' + b2n (gone (id, pc')) = f_wg s + b2n (gone (id, pc)) ->
    (c_limit c <> 0 -> f_tokens s' + b2n (working (id, pc')) = f_tokens s + b2n (working (id, pc))) ->
    finv s'.
  Proof.
    intros I H W O P M C MO G T. constructor.
    - destruct (I_ids s I) as (rest & E1 & E2). exists rest. rewrite W, (map_fst_upd _ _ _ _ _ H). split; [exact E1|auto].
    - pose proof (I_wg s I) as Q. pose proof (cnt_upd gone (id, pc') _ _ _ H) as U. rewrite W. lia.
    - intros Z. pose proof (I_tok s I Z) as Q. specialize (T Z). pose proof (cnt_upd working (id, pc') _ _ _ H) as U. rewrite W. lia.
    - intros j x p Hj. rewrite W in Hj. destruct (Nat.eq_dec k j) as [->|NE].
      + rewrite (nth_upd_same _ _ _ _ H) in Hj. injection Hj as <- <-. exact P.
      + rewrite nth_upd_other in Hj by exact NE.
        assert (D : id <> x). { intros ->. apply NE. eapply nodup_nth; eauto. apply work_nodup. exact I. }
        destruct (O x D) as (O1 & O2 & O3). pose proof (I_work s I _ _ _ Hj) as Q.
        destruct p as [|[v|e]| | |]; unfold pc_ok in *; rewrite O1, O2, O3; exact Q.
    - intros x N. rewrite W, (map_fst_upd _ _ _ _ _ H) in N.
      assert (D : id <> x). { intros ->. apply N. apply nth_error_In in H. apply (in_map fst) in H. exact H. }
      destruct (O x D) as (O1 & O2 & O3). rewrite O1, O2, O3. apply (I_rest s I x N).
  Qed.

  Lemma finv_main s s' : finv s -> main_step c s = Some s' -> finv s'.
  Proof.
    intros I H. unfold main_step in H. destruct (I_ids s I) as (rest & E1 & E2). unfold main_ok in E2.
    destruct (f_main s) as [[|id r]|id r| |ok] eqn:M.
    - injection H as <-. constructor; cbn; try apply I. exists rest. split; [exact E1|]. exact E2.
    - injection H as <-. constructor; cbn; try apply I. exists rest. split; [exact E1|].
      unfold main_ok. cbn. destruct (f_cancelled s); [reflexivity|exact E2].
    - assert (A : forall t, (c_limit c <> 0 -> f_tokens s = S t) ->
        finv (FS (M_loop r) (f_cancelled s) t (f_wg s) (f_work s ++ [(id, W_new)]) (f_ok s) (f_er s) (f_lists s))).
      { intros t Ht. assert (NI : ~ In id (map fst (f_work s))).
        { intros Hin. pose proof nodup as N. rewrite E1, E2 in N. apply NoDup_remove_2 in N. apply N. apply in_or_app. auto. }
        constructor; cbn.
        - exists r. rewrite map_app. cbn. rewrite <- app_assoc. cbn. split; [rewrite <- E2; exact E1|reflexivity].
        - rewrite cnt_app, cnt_one. cbn. pose proof (I_wg s I). lia.
        - intros Z. rewrite cnt_app, cnt_one. cbn. pose proof (I_tok s I Z). specialize (Ht Z). lia.
        - intros k x p Hk. destruct (Nat.lt_ge_cases k (length (f_work s))) as [Lk|Gk].
          + rewrite nth_error_app1 in Hk by exact Lk. exact (I_work s I _ _ _ Hk).
          + rewrite nth_error_app2 in Hk by exact Gk. destruct (k - length (f_work s)) as [|z]; cbn in Hk; [|destruct z; discriminate].
            injection Hk as <- <-. exact (I_rest s I id NI).
        - intros x N. apply (I_rest s I). intros Hin. apply N. rewrite map_app. apply in_or_app. auto. }
      destruct (Nat.eqb (c_limit c) 0) eqn:Z.
      + injection H as <-. apply A. intros NZ. apply Nat.eqb_eq in Z. contradiction.
      + destruct (f_tokens s) as [|t] eqn:T; [discriminate|]. injection H as <-. apply A. auto.
    - destruct (Nat.eqb (f_wg s) 0) eqn:Z; [|discriminate]. injection H as <-. apply Nat.eqb_eq in Z.
      constructor; cbn; try apply I. exists rest. split; [exact E1|]. split; [exact E2|exact Z].
    - discriminate.
  Qed.

  Lemma finv_work s k s' : finv s -> work_step c k s = Some s' -> finv s'.
  Proof.
    intros I H. unfold work_step in H. destruct (nth_error (f_work s) k) as [[id pc]|] eqn:N; [|discriminate].
    pose proof (I_work s I _ _ _ N) as P.
    destruct pc as [|[x|e]| | |].
    - cbn in P. destruct P as (P1 & P2 & P3). rewrite P1 in H. destruct (ls id) as [l|] eqn:Q.
      + destruct (c_fn c id l) as [l' r] eqn:F. injection H as <-.
        eapply (keep_work s _ k id W_new (W_got (got r)) I N); cbn; try reflexivity; auto.
        * intros y D. rewrite fset_other by exact D. auto.
        * unfold list_after, success_of, error_of. destruct r; cbn; rewrite Q, F, fset_same; cbn; auto.
      + injection H as <-. eapply (keep_work s _ k id W_new (W_got (inr X_missing)) I N); cbn; try reflexivity; auto.
        unfold list_after, success_of, error_of. rewrite Q. auto.
    - cbn in P. destruct P as (P1 & P2 & P3 & P4 & P5). injection H as <-.
      eapply (keep_work s _ k id (W_got (inl x)) W_rec I N); cbn; try reflexivity; auto.
      + intros y D. rewrite fset_other by exact D. auto.
      + rewrite fset_same, P3, P4, P5. auto.
    - cbn in P. destruct P as (P1 & P2 & P3 & P4 & P5). injection H as <-.
      eapply (keep_work s _ k id (W_got (inr e)) W_rec I N); cbn; try reflexivity; auto.
      + intros y D. rewrite fset_other by exact D. auto.
      + rewrite fset_same, P2, P4, P5. auto.
    - destruct (Nat.eqb (c_limit c) 0) eqn:Z.
      + injection H as <-. eapply (keep_work s _ k id W_rec W_tok I N); cbn; try reflexivity; auto.
        intros NZ. apply Nat.eqb_eq in Z. contradiction.
      + destruct (Nat.ltb (f_tokens s) (c_limit c)) eqn:T; [|discriminate]. injection H as <-.
        eapply (keep_work s _ k id W_rec W_tok I N); cbn; try reflexivity; auto; try (intros; lia).
    - injection H as <-.
      assert (G : 0 < f_wg s).
      { pose proof (I_wg s I) as G. destruct (I_ids s I) as (rest & E1 & _).
        assert (LL : length ids = length (f_work s) + length rest) by (rewrite E1, app_length, map_length; reflexivity).
        destruct (Nat.eq_dec (f_wg s) 0) as [Z|]; [|lia]. pose proof (cnt_le gone (f_work s)) as B.
        assert (F : gone (id, W_tok) = true). { eapply cnt_all; [|apply nth_error_In with (n := k); exact N]. lia. }
        discriminate. }
      eapply (keep_work s _ k id W_tok W_gone I N); cbn; try reflexivity; auto; [|lia].
      intros rest. unfold main_ok. cbn. destruct (f_main s) as [| | |[|]]; auto. intros (A & B). lia.
    - discriminate.
  Qed.

  Lemma finv_step s g s' : finv s -> fstep c g s = Some s' -> finv s'.
  Proof.
    intros I H. destruct g as [| |k]; cbn in H.
    - eapply finv_main; eauto.
    - destruct (f_cancelled s) eqn:C; [discriminate|]. injection H as <-.
      constructor; cbn; try apply I. destruct (I_ids s I) as (rest & E1 & E2). exists rest. split; [exact E1|].
      unfold main_ok in *. cbn. destruct (f_main s) as [| | |[|]]; auto.
    - eapply finv_work; eauto.
  Qed.
  Lemma finv_run gs : forall s s', finv s -> frun c gs s = Some s' -> finv s'.
  Proof.
    induction gs as [|g gs IH]; intros s s' I H; cbn in H; [injection H as <-; exact I|].
    destruct (fstep c g s) as [s1|] eqn:S1; [|discriminate]. eapply IH; [|exact H]. eapply finv_step; eauto.
  Qed.

  (** ** results *)
  Lemma all_gone s : finv s -> f_wg s = 0 -> (forall p, In p (f_work s) -> gone p = true) /\ map fst (f_work s) = ids.
  Proof.
    intros I Z. pose proof (I_wg s I) as G. destruct (I_ids s I) as (rest & E1 & _).
    assert (LL : length ids = length (f_work s) + length rest) by (rewrite E1, app_length, map_length; reflexivity).
    pose proof (cnt_le gone (f_work s)) as B. split.
    - apply cnt_all. lia.
    - destruct rest; [rewrite app_nil_r in E1; symmetry; exact E1|cbn in LL; lia].
  Qed.
  Lemma inv_complete s : finv s -> f_wg s = 0 -> complete (c_fn c) ls ids s.
  Proof.
    intros I Z. destruct (all_gone s I Z) as (G & M). intros id. split; intros H.
    - rewrite <- M in H. apply in_map_iff in H as ((x & pc) & Ex & H). cbn in Ex. subst x.
      pose proof (G _ H) as Q. apply In_nth_error in H as (k & Hk). pose proof (I_work s I _ _ _ Hk) as P.
      destruct pc; try discriminate. exact P.
    - apply (I_rest s I). rewrite M. exact H.
  Qed.
  Lemma f_result gs s : frun c gs (finit c ids ls) = Some s -> f_main s = M_ret true ->
    complete (c_fn c) ls ids s /\ (forall p, In p (f_work s) -> snd p = W_gone).
  Proof.
    intros H M. pose proof (finv_run gs _ _ finv_init H) as I. destruct (I_ids s I) as (rest & E1 & E2).
    unfold main_ok in E2. rewrite M in E2. destruct E2 as (_ & Z). split; [apply inv_complete; auto|].
    intros p Hp. pose proof (proj1 (all_gone s I Z) p Hp) as G. unfold gone in G. destruct (snd p); try discriminate. reflexivity.
  Qed.
  Lemma f_limit gs s : frun c gs (finit c ids ls) = Some s -> c_limit c <> 0 -> cnt working (f_work s) <= c_limit c.
  Proof. intros H Z. pose proof (finv_run gs _ _ finv_init H) as I. pose proof (I_tok s I Z). lia. Qed.
  Lemma f_cancel gs s : frun c gs (finit c ids ls) = Some s -> f_main s = M_ret false -> f_cancelled s = true.
  Proof.
    intros H M. pose proof (finv_run gs _ _ finv_init H) as I. destruct (I_ids s I) as (rest & E1 & E2).
    unfold main_ok in E2. rewrite M in E2. exact E2.
  Qed.

  Definition finished (s : state) : Prop := (exists b, f_main s = M_ret b) /\ forall p, In p (f_work s) -> snd p = W_gone.
  Lemma work_moves s k id pc : finv s -> nth_error (f_work s) k = Some (id, pc) -> pc <> W_gone ->
    exists s', work_step c k s = Some s'.
  Proof.
    intros I N G. unfold work_step. rewrite N. destruct pc as [|[x|e]| | |]; try (eexists; reflexivity); [| |contradiction].
    - destruct (f_lists s id) as [l|]; [|eexists; reflexivity]. destruct (c_fn c id l) as [l' r]. eexists; reflexivity.
    - destruct (Nat.eqb (c_limit c) 0) eqn:Z; [eexists; reflexivity|]. apply Nat.eqb_neq in Z.
      pose proof (I_tok s I Z) as T.
      assert (W : 0 < cnt working (f_work s)).
      { destruct (Nat.eq_dec (cnt working (f_work s)) 0) as [Z0|]; [|lia]. exfalso.
        pose proof (cnt_upd working (id, W_gone) _ _ _ N) as U. cbn in U. lia. }
      assert (Q : Nat.ltb (f_tokens s) (c_limit c) = true) by (apply Nat.ltb_lt; lia). rewrite Q. eexists; reflexivity.
  Qed.
  Lemma some_left (l : list (bytes * wpc R E)) : (forall p, In p l -> snd p = W_gone) \/
    exists k id pc, nth_error l k = Some (id, pc) /\ pc <> W_gone.
  Proof.
    induction l as [|(id & pc) l IH]; [left; intros p []|].
    destruct IH as [A|(k & i & p & H & G)]; [|right; exists (S k), i, p; auto].
    destruct pc; try (right; exists 0; eexists; eexists; split; [reflexivity|discriminate]).
    left. intros p [<-|H]; [reflexivity|auto].
  Qed.
  Lemma inv_progress s : finv s -> finished s \/ exists g s', g <> G_cancel /\ fstep c g s = Some s'.
  Proof.
    intros I. destruct (some_left (f_work s)) as [A|(k & id & pc & N & G)].
    2:{ right. destruct (work_moves s k id pc I N G) as (s' & H). exists (G_work k), s'. split; [discriminate|exact H]. }
    destruct (f_main s) as [[|id r]|id r| |b] eqn:M.
    - right. exists G_main. eexists. split; [discriminate|]. cbn. unfold main_step. rewrite M. reflexivity.
    - right. exists G_main. eexists. split; [discriminate|]. cbn. unfold main_step. rewrite M. reflexivity.
    - right. exists G_main. destruct (Nat.eqb (c_limit c) 0) eqn:Z.
      + eexists. split; [discriminate|]. cbn. unfold main_step. rewrite M, Z. reflexivity.
      + pose proof Z as Z'. apply Nat.eqb_neq in Z'. pose proof (I_tok s I Z') as T.
        rewrite cnt_zero in T by (intros p Hp; unfold working; rewrite (A p Hp); reflexivity).
        destruct (f_tokens s) as [|t] eqn:Q; [lia|]. eexists. split; [discriminate|]. cbn. unfold main_step. rewrite M, Z, Q. reflexivity.
    - right. exists G_main. pose proof (I_wg s I) as W. destruct (I_ids s I) as (rest & E1 & E2). unfold main_ok in E2. rewrite M in E2.
      rewrite E1, E2, app_nil_r, map_length, cnt_full in W by (intros p Hp; unfold gone; rewrite (A p Hp); reflexivity).
      assert (Q : Nat.eqb (f_wg s) 0 = true) by (apply Nat.eqb_eq; lia).
      eexists. split; [discriminate|]. cbn. unfold main_step. rewrite M, Q. reflexivity.
    - left. split; [exists b; exact M|exact A].
  Qed.
  Lemma f_progress gs s : frun c gs (finit c ids ls) = Some s ->
    finished s \/ exists g s', g <> G_cancel /\ fstep c g s = Some s'.
  Proof. intros H. apply inv_progress. eapply finv_run; eauto. apply finv_init. Qed.

  (** ** termination *)
  Definition wmain (m : mpc) : nat :=
    match m with M_loop r => 6 * length r + 2 | M_take _ r => 6 * length r + 7 | M_wait => 1 | M_ret _ => 0 end.
  Definition wone (p : bytes * wpc R E) : nat := match snd p with W_new => 4 | W_got _ => 3 | W_rec => 2 | W_tok => 1 | W_gone => 0 end.
  Fixpoint wall (l : list (bytes * wpc R E)) : nat := match l with [] => 0 | p :: r => wone p + wall r end.
  Lemma wall_app a b : wall (a ++ b) = wall a + wall b.
  Proof. induction a as [|x a IH]; cbn [app wall]; [reflexivity|]. rewrite IH. lia. Qed.
  Definition todo (s : state) : nat := wmain (f_main s) + wall (f_work s) + b2n (negb (f_cancelled s)).
  Lemma wall_upd y : forall l k x, nth_error l k = Some x -> wall (upd_nth k (fun _ => y) l) + wone x = wall l + wone y.
  Proof.
    induction l as [|a l IH]; intros k x H; destruct k; cbn in H; try discriminate.
    - injection H as <-. cbn [upd_nth wall]. lia.
    - specialize (IH k x H). cbn [upd_nth wall]. lia.
  Qed.
  Lemma todo_step g s s' : fstep c g s = Some s' -> todo s' < todo s.
  Proof.
    intros H. destruct g as [| |k]; cbn in H.
    - unfold main_step in H. unfold todo. destruct (f_main s) as [[|id r]|id r| |b] eqn:M.
      + injection H as <-. cbn. lia.
      + injection H as <-. cbn. destruct (f_cancelled s); cbn; lia.
      + assert (A : forall t, wmain (M_loop r) + wall (f_work s ++ [(id, W_new)]) + b2n (negb (f_cancelled s)) <
                              wmain (M_take id r) + wall (f_work s) + b2n (negb (f_cancelled s)) + t).
        { intros t. rewrite wall_app. cbn. lia. }
        specialize (A 0). rewrite Nat.add_0_r in A.
        destruct (Nat.eqb (c_limit c) 0); [injection H as <-; exact A|].
        destruct (f_tokens s); [discriminate|]. injection H as <-. exact A.
      + destruct (Nat.eqb (f_wg s) 0); [|discriminate]. injection H as <-. cbn. lia.
      + discriminate.
    - unfold todo. destruct (f_cancelled s); [discriminate|]. injection H as <-. cbn. lia.
    - unfold work_step in H. destruct (nth_error (f_work s) k) as [[id pc]|] eqn:N; [|discriminate].
      assert (A : forall pc', wone (id, pc') < wone (id, pc) -> wall (upd_nth k (fun _ => (id, pc')) (f_work s)) < wall (f_work s)).
      { intros pc' Q. pose proof (wall_upd (id, pc') _ _ _ N). lia. }
      unfold todo. destruct pc as [|[x|e]| | |].
      + destruct (f_lists s id) as [l|].
        * destruct (c_fn c id l) as [l' r]. injection H as <-. cbn [f_main f_work f_cancelled]. pose proof (A (W_got (got r)) ltac:(cbn; lia)). lia.
        * injection H as <-. cbn [f_main f_work f_cancelled]. pose proof (A (W_got (inr X_missing)) ltac:(cbn; lia)). lia.
      + injection H as <-. cbn [f_main f_work f_cancelled]. pose proof (A W_rec ltac:(cbn; lia)). lia.
      + injection H as <-. cbn [f_main f_work f_cancelled]. pose proof (A W_rec ltac:(cbn; lia)). lia.
      + pose proof (A W_tok ltac:(cbn; lia)). destruct (Nat.eqb (c_limit c) 0); [injection H as <-; cbn [f_main f_work f_cancelled]; lia|].
        destruct (Nat.ltb (f_tokens s) (c_limit c)); [|discriminate]. injection H as <-. cbn [f_main f_work f_cancelled]. lia.
      + injection H as <-. cbn [f_main f_work f_cancelled]. pose proof (A W_gone ltac:(cbn; lia)). lia.
      + discriminate.
  Qed.
  Lemma todo_run gs : forall s s', frun c gs s = Some s' -> length gs + todo s' <= todo s.
  Proof.
    induction gs as [|g gs IH]; intros s s' H; cbn in H; [injection H as <-; cbn; lia|].
    destruct (fstep c g s) as [s1|] eqn:S1; [|discriminate]. pose proof (todo_step _ _ _ S1). pose proof (IH _ _ H). cbn. lia.
  Qed.
  Lemma f_bound gs s : frun c gs (finit c ids ls) = Some s -> length gs <= 6 * length ids + 3.
  Proof. intros H. pose proof (todo_run _ _ _ H) as T. unfold todo at 2 in T. cbn in T. lia. Qed.
End P.
