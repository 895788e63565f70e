(** Proofs about the collection of lists: paging backwards, walking over all pages. *)
From Coq Require Import Strings.Ascii.
From Verif.Lib Require Import Prelude ListAux ListLemmas SortLemmas Bytes.
From Verif.Model Require Import Lists.
From Verif.Spec Require Import ListsSpec.
From Verif.Proof Require Import ListsP.
Open Scope nat_scope.

Notation sorted := (StronglySorted (ltp blt)).
Notation bsort := (sort_by blt).
Definition below (to : bytes) (P : list bytes) : list bytes := filter (fun x => blt x to) P.

(** before the first overflow everything is kept *)
Definition binv1 (to : bytes) (n : nat) (P : list bytes) (st : scan) : Prop :=
  length (below to P) <= n /\
  st = Scan (below to P) [] (Page 0 (length (filter (fun x => negb (blt x to)) P))).

(** afterwards [m0], the smallest of the first n, is gone *)
Record binv2 (to : bytes) (n : nat) (P : list bytes) (st : scan) (m0 : bytes) (rest : list bytes) : Prop := BInv {
  b_perm : Permutation (below to P) (m0 :: ss st ++ rest);
  b_before : before (pg st) = S (length rest);
  b_after : after (pg st) = length (filter (fun x => negb (blt x to)) P);
  b_len : length (ss st) = n;
  b_lt : forall x y, In x (ss st) -> In y rest -> blt y x = true;
  b_min : forall x, In x (ss st) -> blt x (edge st) = false;
  b_edge : In (edge st) (ss st);
  b_m0 : In m0 (firstn n (below to P));
  b_m0min : forall x, In x (firstn n (below to P)) -> blt x m0 = false }.

Lemma sort_cons s : s <> [] -> NoDup s -> exists m s', bsort s = m :: s' /\ Permutation s (m :: s') /\
  sorted s' /\ (forall x, In x s' -> blt m x = true).
Proof.
  intros Hs N. pose proof (bsort_sorted s N) as So. pose proof (sort_by_perm blt s) as P.
  destruct (bsort s) as [|m s'] eqn:E.
  - apply Permutation_nil in P. contradiction.
  - exists m, s'. split; [reflexivity|]. split; [symmetry; exact P|]. inv So. split; [assumption|].
    intros x Hx. rewrite Forall_forall in H2. apply H2, Hx.
Qed.
Lemma min_eq s m s' e : Permutation s (m :: s') -> (forall x, In x s' -> blt m x = true) -> In e s ->
  (forall x, In x s -> blt x e = false) -> m = e.
Proof.
  intros P Hm He Hmin. apply (Permutation_in _ P) in He. destruct He as [He|He]; [exact He|]. exfalso.
  pose proof (Hmin m (Permutation_in _ (Permutation_sym P) (or_introl eq_refl))) as C. rewrite (Hm e He) in C. discriminate.
Qed.

Lemma below_app to P id : below to (P ++ [id]) = if blt id to then below to P ++ [id] else below to P.
Proof. unfold below. rewrite filter_app. cbn. destruct (blt id to); [reflexivity|apply app_nil_r]. Qed.
Lemma above_app to P id : filter (fun x => negb (blt x to)) (P ++ [id]) =
  if blt id to then filter (fun x => negb (blt x to)) P else filter (fun x => negb (blt x to)) P ++ [id].
Proof. rewrite filter_app. cbn. destruct (blt id to); cbn; [apply app_nil_r|reflexivity]. Qed.
Lemma firstn_more {A} n (l : list A) x : n <= length l -> firstn n (l ++ [x]) = firstn n l.
Proof. intros H. rewrite firstn_app. replace (n - length l) with 0 by lia. cbn. apply app_nil_r. Qed.

Lemma replace_edge m s' id (first := nth 1 (m :: s') []) : s' <> [] -> sorted s' ->
  let s2 := id :: s' in let e2 := if blt id first then id else first in
  (forall x, In x s2 -> blt x e2 = false) /\ In e2 s2.
Proof.
  intros Hs So. destruct s' as [|f s']; [contradiction|]. subst first. cbn [nth]. inv So. rewrite Forall_forall in H2.
  assert (Hf : forall x, In x (f :: s') -> blt x f = false).
  { intros x [<-|Hx]; [apply blt_irrefl|apply blt_asym, H2, Hx]. }
  destruct (blt id f) eqn:E; cbn zeta.
  - split; [|left; reflexivity]. intros x [<-|Hx]; [apply blt_irrefl|].
    destruct (blt x id) eqn:E2; [|reflexivity]. pose proof (blt_trans _ _ _ E2 E). rewrite (Hf x Hx) in H. discriminate.
  - split; [|right; left; reflexivity]. intros x [<-|Hx]; [exact E|apply Hf, Hx].
Qed.

Lemma binv1_step to n P st id : 2 <= n -> NoDup (P ++ [id]) -> binv1 to n P st ->
  let st' := before_step to n st id in
  binv1 to n (P ++ [id]) st' \/ exists m0 rest, binv2 to n (P ++ [id]) st' m0 rest.
Proof.
  intros Hn ND (HL & ->). cbn zeta. unfold before_step, binv1. rewrite below_app, above_app.
  assert (NDb : NoDup (below to P ++ [id])).
  { apply NoDup_app_iff in ND as (N1 & N2 & N3). apply NoDup_app_intro; auto; [apply NoDup_filter, N1|].
    intros x Hx. apply N3. apply filter_In in Hx. tauto. }
  assert (Nil : forall x : bytes, blt x [] = false) by (intros []; reflexivity).
  destruct (blt id to) eqn:Et.
  2:{ left. split; [exact HL|]. f_equal. f_equal. rewrite app_length. cbn. lia. }
  destruct (length (below to P) =? n) eqn:El.
  - apply Nat.eqb_eq in El. right. rewrite Nil.
    assert (Ns : NoDup (below to P)) by (apply NoDup_app_iff in NDb; tauto).
    destruct (sort_cons (below to P)) as (m & s' & Es & Ps & So & Hm); [intros E; rewrite E in El; cbn in El; lia|exact Ns|].
    assert (Ls : length s' = n - 1) by (apply Permutation_length in Ps; cbn in Ps; lia).
    rewrite Es. exists m, []. destruct (replace_edge m s' id) as (R1 & R2); [intros ->; cbn in Ls; lia|exact So|].
    split; cbn [ss edge pg before after]; rewrite ?below_app, ?above_app, ?Et; auto.
    + cbn. rewrite app_nil_r, Ps. rewrite Permutation_app_comm. cbn. rewrite perm_swap. reflexivity.
    + cbn. lia.
    + rewrite firstn_more by lia. rewrite firstn_all2 by lia. apply (Permutation_in _ (Permutation_sym Ps)). left. reflexivity.
    + intros x Hx. rewrite firstn_more in Hx by lia. rewrite firstn_all2 in Hx by lia. apply (Permutation_in _ Ps) in Hx as [<-|Hx].
      * apply blt_irrefl.
      * apply blt_asym, Hm, Hx.
  - apply Nat.eqb_neq in El. left. rewrite Nil. split; [rewrite app_length; cbn; lia|]. reflexivity.
Qed.

Lemma binv2_step to n P st m0 rest id : 2 <= n -> NoDup (P ++ [id]) -> binv2 to n P st m0 rest ->
  exists rest', binv2 to n (P ++ [id]) (before_step to n st id) m0 rest'.
Proof.
  intros Hn ND [HP HB HA HL HLt HM HE H0 H0m]. destruct st as [s e [b a]]. cbn [ss edge pg before after] in *.
  unfold before_step.
  assert (Lb : n <= length (below to P)).
  { apply Permutation_length in HP. cbn in HP. rewrite app_length in HP. lia. }
  assert (NDs : NoDup ((m0 :: s ++ rest) ++ [id])).
  { apply NoDup_app_iff in ND as (N1 & N2 & N3). apply NoDup_app_intro; auto.
    - eapply Permutation_NoDup; [exact HP|]. apply NoDup_filter, N1.
    - intros x Hx. apply N3. apply (Permutation_in _ (Permutation_sym HP)) in Hx. apply filter_In in Hx. tauto. }
  assert (NDs' : NoDup (s ++ rest ++ [id])) by (cbn in NDs; inv NDs; rewrite app_assoc; assumption).
  destruct (blt id to) eqn:Et.
  2:{ exists rest. split; cbn [ss edge pg before after]; rewrite ?below_app, ?above_app, ?Et; auto.
      rewrite app_length. cbn. lia. }
  assert (El : (length s =? n) = true) by (apply Nat.eqb_eq, HL). rewrite El.
  destruct (blt id e) eqn:Ee.
  - exists (rest ++ [id]). split; cbn [ss edge pg before after]; rewrite ?below_app, ?above_app, ?Et; auto.
    + rewrite HP. cbn. rewrite <- app_assoc. reflexivity.
    + rewrite app_length. cbn. lia.
    + intros x y Hx Hy. apply in_app_or in Hy as [Hy|[<-|[]]]; [auto|].
      destruct (blt e x) eqn:E2; [apply (blt_trans _ _ _ Ee E2)|]. rewrite (blt_total _ _ (HM x Hx) E2). exact Ee.
    + rewrite firstn_more by exact Lb. exact H0.
    + rewrite firstn_more by exact Lb. exact H0m.
  - assert (Nid : id <> e).
    { intros ->. apply NoDup_app_iff in NDs' as (_ & _ & D). apply (D e HE). apply in_or_app. right. left. reflexivity. }
    pose proof (ble_ne _ _ Ee Nid) as Hid. clear Ee.
    assert (Ns : NoDup s) by (apply NoDup_app_iff in NDs'; tauto).
    destruct (sort_cons s) as (m & s' & Es & Ps & So & Hm); [intros E; rewrite E in HL; cbn in HL; lia|exact Ns|].
    assert (Ls : length s' = n - 1) by (apply Permutation_length in Ps; cbn in Ps; lia).
    pose proof (min_eq _ _ _ _ Ps Hm HE HM) as Em. subst m.
    rewrite Es. destruct (replace_edge e s' id) as (R1 & R2); [intros ->; cbn in Ls; lia|exact So|].
    exists (e :: rest). split; cbn [ss edge pg before after]; rewrite ?below_app, ?above_app, ?Et; auto.
    + rewrite HP. cbn. apply perm_skip. rewrite Permutation_app_comm. cbn. apply perm_skip. rewrite Ps. cbn.
      apply Permutation_middle.
    + cbn. lia.
    + intros x y Hx Hy.
      assert (Hx2 : blt e x = true) by (destruct Hx as [<-|Hx]; [exact Hid|apply Hm, Hx]).
      destruct Hy as [<-|Hy]; [exact Hx2|]. apply (blt_trans _ e); [|exact Hx2]. apply HLt; [exact HE|exact Hy].
    + rewrite firstn_more by exact Lb. exact H0.
    + rewrite firstn_more by exact Lb. exact H0m.
Qed.

Lemma before_run to n : 2 <= n -> forall Q P st, NoDup (P ++ Q) ->
  binv1 to n P st \/ (exists m0 rest, binv2 to n P st m0 rest) ->
  let st' := fold_left (before_step to n) Q st in
  binv1 to n (P ++ Q) st' \/ (exists m0 rest, binv2 to n (P ++ Q) st' m0 rest).
Proof.
  intros Hn Q. induction Q as [|id Q IH]; intros P st ND H; cbn [fold_left].
  - rewrite app_nil_r. exact H.
  - change (P ++ id :: Q) with (P ++ [id] ++ Q) in *. rewrite app_assoc in *. apply IH; [exact ND|].
    assert (N1 : NoDup (P ++ [id])) by (apply NoDup_app_iff in ND; tauto).
    destruct H as [H|(m0 & rest & H)].
    + apply binv1_step; assumption.
    + right. exists m0. apply (binv2_step to n P st m0 rest); assumption.
Qed.

(** the result of a scan: all, the last n, or the last n without the n-th but with one more *)
Lemma before_scan to n ids L : 2 <= n -> NoDup ids -> sorted L -> (forall id, In id L <-> In id ids /\ blt id to = true) ->
  let st := fold_left (before_step to n) ids (Scan [] [] (Page 0 0)) in
  let k := length L - n in
  before (pg st) = k /\ after (pg st) + length L = length ids /\ length (ss st) <= n /\
  (length L <= n -> bsort (ss st) = L) /\
  (n < length L ->
     (Permutation (firstn n (below to ids)) (skipn k L) /\
      bsort (ss st) = firstn 1 (skipn (k - 1) L) ++ skipn (S k) L) \/
     (~ Permutation (firstn n (below to ids)) (skipn k L) /\ bsort (ss st) = skipn k L)).
Proof.
  intros Hn ND SL HL st k.
  pose proof (filter_NoDup_perm _ _ _ ND (sorted_NoDup _ SL) HL) as PL. fold (below to ids) in PL.
  assert (Hlen : length (filter (fun x => negb (blt x to)) ids) + length L = length ids).
  { rewrite <- (Permutation_length PL). pose proof (partition_len (fun x => blt x to) ids). unfold below. lia. }
  pose proof (before_run to n Hn ids [] (Scan [] [] (Page 0 0)) ND (or_introl (conj (Nat.le_0_l n) eq_refl))) as H.
  cbn [app] in H. fold st in H. destruct H as [(H1 & H2)|(m0 & rest & [HP HB HA HLn HLt HM HE H0 H0m])].
  - rewrite H2. cbn [ss pg before after]. pose proof (Permutation_length PL) as E.
    split; [lia|]. split; [exact Hlen|]. split; [exact H1|]. split; [|lia].
    intros _. apply bsort_of_sorted; [exact SL|symmetry; exact PL|apply NoDup_filter, ND].
  - pose proof (Permutation_length PL) as E. pose proof (Permutation_length HP) as E2. cbn in E2. rewrite app_length in E2.
    rewrite HB, HA, HLn. split; [lia|]. split; [exact Hlen|]. split; [lia|]. split; [lia|]. intros _.
    set (s := ss st) in *. set (D := below to ids) in *.
    assert (NDD : NoDup D) by (apply NoDup_filter, ND).
    assert (ND2 : NoDup (m0 :: s ++ rest)) by (eapply Permutation_NoDup; [exact HP|exact NDD]).
    apply NoDup_cons_iff in ND2 as (H1 & H2). apply NoDup_app_iff in H2 as (N1 & N2 & N3).
    assert (M1 : ~ In m0 s) by (intros I; apply H1, in_or_app; auto).
    assert (M2 : ~ In m0 rest) by (intros I; apply H1, in_or_app; auto).
    (* the others of the first n are above m0 *)
    apply in_split in H0 as (f1 & f2 & Ef).
    set (F := f1 ++ f2).
    assert (PF : Permutation (firstn n D) (m0 :: F)) by (rewrite Ef; symmetry; apply Permutation_middle).
    assert (LF : length F = n - 1).
    { apply Permutation_length in PF. cbn in PF. rewrite firstn_length in PF. lia. }
    assert (NDF : NoDup (m0 :: F)).
    { eapply Permutation_NoDup; [exact PF|]. rewrite <- (firstn_skipn n D) in NDD. apply NoDup_app_iff in NDD. tauto. }
    assert (HF : forall x, In x F -> blt m0 x = true /\ (In x s \/ In x rest)).
    { intros x Hx. apply NoDup_cons_iff in NDF as (NF1 & NF2). assert (Hne : x <> m0) by (intros ->; contradiction).
      assert (Ifn : In x (firstn n D)) by (apply (Permutation_in _ (Permutation_sym PF)); right; exact Hx).
      split; [apply ble_ne; [apply H0m, Ifn|exact Hne]|].
      apply In_firstn in Ifn. apply (Permutation_in _ HP) in Ifn as [C|C]; [congruence|]. apply in_app_or, C. }
    (* the smallest of s *)
    destruct (sort_cons s) as (z & s' & Es & Ps & So & Hz); [intros Ec; rewrite Ec in HLn; cbn in HLn; lia|exact N1|].
    assert (Ls' : length s' = n - 1) by (apply Permutation_length in Ps; cbn in Ps; lia).
    assert (Zs : In z s) by (apply (Permutation_in _ (Permutation_sym Ps)); left; reflexivity).
    assert (Bs : sorted (bsort s)) by (apply bsort_sorted, N1).
    assert (Br : sorted (bsort rest)) by (apply bsort_sorted, N2).
    assert (Hs' : forall x, In x s' -> blt m0 x = true).
    { intros x Hx. destruct (blt m0 x) eqn:Em; [reflexivity|]. exfalso.
      (* then all n-1 of F are above x, which has fewer than n-1 above it *)
      assert (Hx2 : forall y, In y F -> blt x y = true).
      { intros y Hy. destruct (HF y Hy) as (A & _). destruct (blt x m0) eqn:E3; [apply (blt_trans _ _ _ E3 A)|].
        rewrite <- (blt_total _ _ Em E3). exact A. }
      assert (I : incl (x :: F) s').
      { intros y [<-|Hy]; [exact Hx|]. destruct (HF y Hy) as (_ & [C|C]).
        - apply (Permutation_in _ Ps) in C as [C|C]; [|exact C]. subst y. exfalso.
          pose proof (Hx2 z Hy) as A. specialize (Hz x Hx).
          pose proof (blt_asym _ _ A). congruence.
        - exfalso. assert (In x s) by (apply (Permutation_in _ (Permutation_sym Ps)); right; exact Hx).
          pose proof (HLt x y H C) as B. pose proof (Hx2 y Hy) as A. pose proof (blt_asym _ _ A). congruence. }
      assert (ND3 : NoDup (x :: F)).
      { apply NoDup_cons_iff in NDF as (NF1 & NF2). constructor; [|assumption]. intros C. pose proof (Hx2 x C) as A. rewrite blt_irrefl in A. discriminate. }
      pose proof (NoDup_incl_length ND3 I) as C. cbn in C. lia. }
    assert (Sz : forall a, sorted (z :: s') -> sorted a -> (forall x, In x a -> blt x z = true) -> sorted (a ++ z :: s')).
    { intros l A B C. apply StronglySorted_app. split; [exact B|]. split; [exact A|]. intros x y Hx [<-|Hy]; [apply C, Hx|].
      apply (blt_trans _ z); [apply C, Hx|apply Hz, Hy]. }
    rewrite Es in *.
    destruct (blt m0 z) eqn:Emz.
    + right.
      assert (EL : L = bsort (m0 :: rest) ++ z :: s').
      { apply sorted_eq; [exact SL| |].
        - apply Sz; [exact Bs|apply bsort_sorted; constructor; assumption|].
          intros x Hx. apply (sort_by_In blt) in Hx as [<-|Hx]; [exact Emz|]. apply HLt; assumption.
        - rewrite <- PL, HP, sort_by_perm. rewrite <- Ps. cbn. apply perm_skip. apply Permutation_app_comm. }
      assert (Ek : k = length (bsort (m0 :: rest))) by (rewrite sort_by_length; cbn; unfold k; lia).
      assert (Esk : skipn k L = z :: s') by (rewrite EL, skipn_app, skipn_all2 by lia; rewrite Ek, Nat.sub_diag; reflexivity).
      rewrite Esk. split; [|reflexivity]. intros C.
      apply M1. apply (Permutation_in _ (Permutation_sym Ps)). rewrite <- C. apply (Permutation_in _ (Permutation_sym PF)). left. reflexivity.
    + left.
      assert (Hzm : blt z m0 = true) by (apply ble_ne; [exact Emz|intros ->; contradiction]).
      assert (EL : L = bsort rest ++ z :: m0 :: s').
      { apply sorted_eq; [exact SL| |].
        - apply StronglySorted_app. split; [exact Br|]. split.
          + constructor.
            * constructor; [exact So|]. apply Forall_forall. exact Hs'.
            * constructor; [exact Hzm|]. apply Forall_forall. exact Hz.
          + intros x y Hx Hy. apply (proj1 (sort_by_In blt _ _)) in Hx.
            assert (A : blt x z = true) by (apply HLt; assumption).
            destruct Hy as [<-|[<-|Hy]]; [exact A|apply (blt_trans _ _ _ A Hzm)|apply (blt_trans _ _ _ A), Hz, Hy].
        - rewrite <- PL, HP, sort_by_perm. rewrite Ps. cbn. rewrite (Permutation_app_comm s' rest).
          rewrite <- Permutation_middle. rewrite <- Permutation_middle. apply perm_swap. }
      assert (Ek : k - 1 = length (bsort rest)) by (rewrite sort_by_length; unfold k; lia).
      assert (Sk : skipn (k - 1) L = z :: m0 :: s') by (rewrite EL, skipn_app, skipn_all2 by lia; rewrite Ek, Nat.sub_diag; reflexivity).
      assert (Hk : 1 <= k) by (unfold k; lia).
      assert (Sk1 : skipn k L = m0 :: s').
      { replace k with ((k - 1) + 1) by lia. rewrite <- skipn_skipn. rewrite Sk. reflexivity. }
      assert (Sk2 : skipn (S k) L = s').
      { replace (S k) with ((k - 1) + 2) by lia. rewrite <- skipn_skipn. rewrite Sk. reflexivity. }
      rewrite Sk, Sk1, Sk2. split; [|reflexivity].
      rewrite PF. apply perm_skip. apply NoDup_Permutation_bis; [apply NoDup_cons_iff in NDF; tauto|lia|].
      intros y Hy. destruct (HF y Hy) as (A & [C|C]).
      * apply (Permutation_in _ Ps) in C as [<-|C]; [|exact C]. pose proof (blt_asym _ _ A). congruence.
      * exfalso. assert (B : blt y z = true) by (apply HLt; assumption). pose proof (blt_trans _ _ _ A B). congruence.
Qed.

Lemma visited_below to enum D : visited (fun id => precedes id to) enum D -> D = below to (map lid enum).
Proof.
  induction 1 as [|l ls ids H _ IH|l ls ids H _ IH]; cbn; [reflexivity| |].
  - apply precedes_blt in H. rewrite H, IH. reflexivity.
  - destruct (blt (lid l) to) eqn:E; [exfalso; apply H, precedes_blt, E|exact IH].
Qed.
Lemma members_incl m ids r : members m ids r -> incl r m.
Proof.
  induction 1 as [|id ids l ls Hl E _ IH|id ids ls Hn _ IH]; [intros x []| |exact IH].
  intros x [<-|Hx]; auto.
Qed.
Lemma collect_exact enum k s : length s <= k -> (forall id, In id s -> In id (map lid enum)) ->
  map lid (collect enum k s) = s /\ incl (collect enum k s) enum.
Proof.
  intros HL H. pose proof (collect_members enum k s HL) as M. split; [apply (members_all enum); assumption|apply (members_incl _ _ _ M)].
Qed.

Definition back_of (n : nat) (D L : list bytes) (s : list bytes) : Prop :=
  let k := length L - n in
  (length L <= n -> s = L) /\
  (n < length L ->
     (Permutation (firstn n D) (skipn k L) /\ s = firstn 1 (skipn (k - 1) L) ++ skipn (S k) L) \/
     (~ Permutation (firstn n D) (skipn k L) /\ s = skipn k L)).

Lemma back_incl n D L s : back_of n D L s -> incl s L.
Proof.
  intros (H1 & H2). destruct (le_lt_dec (length L) n) as [H|H].
  - rewrite (H1 H). intros x Hx. exact Hx.
  - destruct (H2 H) as [(_ & ->)|(_ & ->)]; intros x Hx.
    + apply in_app_or in Hx as [Hx|Hx]; [apply In_firstn in Hx|]; eapply In_skipn, Hx.
    + eapply In_skipn, Hx.
Qed.

Lemma before_facts enum to n D L : 2 <= n -> distinct enum -> ascending enum (fun id => precedes id to) L ->
  visited (fun id => precedes id to) enum D ->
  let st := fold_left (before_step to n) (map lid enum) (Scan [] [] (Page 0 0)) in
  before (pg st) = length L - n /\ after (pg st) + length L = length enum /\
  length (bsort (ss st)) = Nat.min n (length L) /\ back_of n D L (bsort (ss st)).
Proof.
  intros Hn Hd (SL & HL) HD st. apply precedes_sorted in SL.
  assert (HL' : forall id, In id L <-> In id (map lid enum) /\ blt id to = true).
  { intros id. rewrite HL, in_ids, precedes_blt. reflexivity. }
  pose proof (before_scan to n (map lid enum) L Hn Hd SL HL') as H. cbn zeta in H. fold st in H. rewrite map_length in H.
  apply visited_below in HD. subst D. destruct H as (H1 & H2 & H3 & H4 & H5).
  split; [exact H1|]. split; [exact H2|]. split; [|split; assumption].
  destruct (le_lt_dec (length L) n) as [H|H].
  - rewrite (H4 H). lia.
  - destruct (H5 H) as [(_ & ->)|(_ & ->)]; [rewrite app_length, firstn_length|]; rewrite !skipn_length; lia.
Qed.

Theorem c30_page : forall enum to n D L, distinct enum -> (2 <= n)%Z ->
  ascending enum (fun id => precedes id to) L -> visited (fun id => precedes id to) enum D ->
  let '(r, p) := sorted_before enum enum to n in
  let m := Z.to_nat n in
  let k := length L - m in
  before p = k /\ after p + length L = length enum /\ incl r enum /\
  (length L <= m -> map lid r = L) /\
  (m < length L ->
     (Permutation (firstn m D) (skipn k L) /\ map lid r = firstn 1 (skipn (k - 1) L) ++ skipn (S k) L) \/
     (~ Permutation (firstn m D) (skipn k L) /\ map lid r = skipn k L)).
Proof.
  intros enum to n D L Hd Hn HL HD. unfold sorted_before.
  replace (n <=? 0)%Z with false by lia. replace (n =? 1)%Z with false by lia. cbn [andb].
  assert (Hm : 2 <= Z.to_nat n) by lia.
  destruct (before_facts enum to (Z.to_nat n) D L Hm Hd HL HD) as (H1 & H2 & H3 & H4).
  destruct (collect_exact enum (Z.to_nat n) (bsort (ss (fold_left (before_step to (Z.to_nat n)) (map lid enum) (Scan [] [] (Page 0 0)))))) as (C1 & C2).
  { lia. }
  { intros id Hid. apply (back_incl _ _ _ _ H4) in Hid. apply HL in Hid. apply in_ids. tauto. }
  cbn zeta. split; [exact H1|]. split; [exact H2|]. split; [exact C2|]. rewrite C1. exact H4.
Qed.

Theorem c30_one : forall enum to L, distinct enum -> ascending enum (fun id => precedes id to) L ->
  let '(r, p) := sorted_before enum enum to 1 in
  (length L <= 1 -> map lid r = L /\ before p = 0 /\ after p + length L = length enum) /\
  (2 <= length L -> before p = length L - 2 /\ after p + length L = S (length enum) /\
     (map lid r = firstn 1 (skipn (length L - 2) L) \/ map lid r = firstn 1 (skipn (length L - 3) L) /\ 3 <= length L)).
Proof.
  intros enum to L Hd HL. unfold sorted_before. cbn [Z.leb Z.compare Z.eqb Pos.eqb andb].
  assert (HD : exists D, visited (fun id => precedes id to) enum D).
  { clear. induction enum as [|l ls (D & IH)]; [exists []; constructor|]. destruct (blt (lid l) to) eqn:E.
    - exists (lid l :: D). apply visited_in; [apply precedes_blt, E|exact IH].
    - exists D. apply visited_out; [rewrite precedes_blt; congruence|exact IH]. }
  destruct HD as (D & HD).
  destruct (before_facts enum to 2 D L (le_n 2) Hd HL HD) as (H1 & H2 & H3 & H4).
  set (st := fold_left (before_step to 2) (map lid enum) (Scan [] [] (Page 0 0))) in *.
  assert (HI : forall id, In id (bsort (ss st)) -> In id (map lid enum)).
  { intros id Hid. apply (back_incl _ _ _ _ H4) in Hid. apply HL in Hid. apply in_ids. tauto. }
  destruct (1 <? length (bsort (ss st))) eqn:E.
  - apply Nat.ltb_lt in E. split; [lia|]. intros _. cbn [before after]. split; [lia|]. split; [lia|].
    destruct (collect_exact enum 2 (firstn 1 (bsort (ss st)))) as (C1 & C2).
    { rewrite firstn_length. lia. }
    { intros id Hid. apply HI. eapply In_firstn, Hid. }
    rewrite C1. destruct H4 as (H5 & H6). destruct (le_lt_dec (length L) 2) as [H|H].
    + left. rewrite (H5 H). replace (length L - 2) with 0 by lia. reflexivity.
    + destruct (H6 H) as [(_ & ->)|(_ & ->)].
      * right. split; [|lia]. replace (length L - 2 - 1) with (length L - 3) by lia.
        rewrite firstn_app, firstn_firstn. rewrite firstn_length, skipn_length.
        replace (1 - Nat.min 1 (length L - (length L - 3))) with 0 by lia. cbn [firstn]. rewrite app_nil_r. reflexivity.
      * left. reflexivity.
  - apply Nat.ltb_ge in E. split; [|lia]. intros Hle.
    destruct (collect_exact enum 2 (bsort (ss st))) as (C1 & C2); [lia|exact HI|].
    rewrite C1. split; [apply H4; lia|]. split; lia.
Qed.
Theorem c30_none : forall enum now to n, (n <= 0)%Z -> sorted_before enum now to n = ([], Page 0 0).
Proof. intros. unfold sorted_before. replace (n <=? 0)%Z with true by lia. reflexivity. Qed.

(** ** walking forward over all pages *)
Lemma ascending_exists ls P : (forall id, {P id} + {~ P id}) -> distinct ls -> exists L, ascending ls P L.
Proof.
  intros dec Hd. exists (bsort (filter (fun id => if dec id then true else false) (map lid ls))). split.
  - apply precedes_sorted, bsort_sorted, NoDup_filter, Hd.
  - intros id. rewrite (sort_by_In blt), filter_In, in_ids. destruct (dec id); intuition congruence.
Qed.
Lemma precedes_dec a b : {precedes a b} + {~ precedes a b}.
Proof. destruct (blt a b) eqn:E; [left; apply precedes_blt, E|right; rewrite precedes_blt; congruence]. Qed.
Lemma ascending_perm ls ls' P L : Permutation ls ls' -> ascending ls P L -> ascending ls' P L.
Proof.
  intros HP (A & B). split; [exact A|]. intros id. rewrite B. split; intros ((l & C & D) & E); split; auto; exists l; split; auto.
  - eapply Permutation_in; eauto.
  - eapply Permutation_in; [symmetry|]; eauto.
Qed.
Lemma distinct_perm ls ls' : Permutation ls ls' -> distinct ls -> distinct ls'.
Proof. intros HP. apply Permutation_NoDup, Permutation_map, HP. Qed.
Lemma ascending_unique ls P L L' : ascending ls P L -> ascending ls P L' -> L = L'.
Proof.
  intros (A & B) (A' & B'). apply precedes_sorted in A, A'. apply sorted_eq; auto.
  apply NoDup_Permutation; [apply sorted_NoDup, A|apply sorted_NoDup, A'|]. intros x. rewrite B, B'. reflexivity.
Qed.

Lemma walk_ascending ls n : distinct ls -> (0 < n)%Z -> forall from R, walk ls n from R ->
  ascending ls (precedes from) (map lid R) /\ incl R ls.
Proof.
  intros Hd Hn from R W. induction W as [enum from p HP E|enum from p r l rest HP E _ (IH1 & IH2)].
  - destruct (ascending_exists ls (precedes from)) as (L & HL); [apply precedes_dec|exact Hd|].
    pose proof (c29_exact enum from n L (distinct_perm _ _ (Permutation_sym HP) Hd) Hn (ascending_perm _ _ _ _ (Permutation_sym HP) HL)) as H.
    rewrite E in H. destruct H as (H & _). cbn [map] in *. split; [|intros x []].
    destruct L as [|x L]; [exact HL|]. exfalso. destruct (Z.to_nat n) eqn:En; [lia|]. discriminate H.
  - destruct (ascending_exists ls (precedes from)) as (L & HL); [apply precedes_dec|exact Hd|].
    pose proof (c29_exact enum from n L (distinct_perm _ _ (Permutation_sym HP) Hd) Hn (ascending_perm _ _ _ _ (Permutation_sym HP) HL)) as H.
    rewrite E in H. destruct H as (H & Hi & _).
    split.
    + assert (EL : L = map lid (r ++ [l]) ++ map lid rest).
      { rewrite H. rewrite <- (firstn_skipn (Z.to_nat n) L) at 1. f_equal.
        destruct HL as (S1 & M1).
        assert (S2 : StronglySorted precedes (firstn (Z.to_nat n) L ++ skipn (Z.to_nat n) L)) by (rewrite firstn_skipn; exact S1).
        apply StronglySorted_app in S2 as (S2 & S3 & S4).
        apply (ascending_unique ls (precedes (lid l))); [|exact IH1]. split; [exact S3|].
        intros id. assert (Il : In (lid l) (firstn (Z.to_nat n) L)) by (rewrite <- H, map_app; apply in_or_app; right; left; reflexivity).
        split.
        - intros Hid. split; [apply M1; eapply In_skipn, Hid|]. apply S4; assumption.
        - intros (Hid & Hp). assert (IL : In id L).
          { apply M1. split; [exact Hid|]. assert (C : precedes from (lid l)) by (apply M1; eapply In_firstn, Il).
            apply precedes_blt in C, Hp. apply precedes_blt. apply (blt_trans _ _ _ C Hp). }
          rewrite <- (firstn_skipn (Z.to_nat n) L) in IL. apply in_app_or in IL as [IL|IL]; [|exact IL]. exfalso.
          rewrite <- H, map_app in IL, S2. apply in_app_or in IL as [IL|[<-|[]]].
          + apply StronglySorted_app in S2 as (_ & _ & S2). specialize (S2 _ _ IL (or_introl eq_refl)).
            apply precedes_blt in S2, Hp. rewrite (blt_asym _ _ S2) in Hp. discriminate.
          + apply precedes_blt in Hp. rewrite blt_irrefl in Hp. discriminate. }
      rewrite app_assoc, map_app, <- EL. exact HL.
    + intros x Hx. rewrite app_assoc in Hx. apply in_app_or in Hx as [Hx|Hx]; [|apply IH2, Hx].
      eapply Permutation_in; [exact HP|]. apply Hi, Hx.
Qed.

Lemma precedes_nil id : precedes [] id <-> id <> [].
Proof. rewrite precedes_blt. destruct id; cbn; split; congruence. Qed.

Theorem c29_walk : forall ls n R, distinct ls -> (0 < n)%Z -> walk ls n [] R ->
  ascending ls (fun id => id <> []) (map lid R) /\ incl R ls.
Proof.
  intros ls n R Hd Hn W. destruct (walk_ascending ls n Hd Hn [] R W) as ((A & B) & C). split; [|exact C].
  split; [exact A|]. intros id. rewrite B, precedes_nil. reflexivity.
Qed.

Lemma walk_ex ls n : distinct ls -> (0 < n)%Z -> forall k from,
  length (filter (blt from) (map lid ls)) <= k -> exists R, walk ls n from R.
Proof.
  intros Hd Hn k. induction k as [|k IH]; intros from Hk.
  - destruct (sorted_after ls ls from n) as [r p] eqn:E.
    destruct (ascending_exists ls (precedes from)) as (L & HL); [apply precedes_dec|exact Hd|].
    pose proof (c29_exact ls from n L Hd Hn HL) as H. rewrite E in H. destruct H as (H & _).
    destruct r as [|x r] using rev_ind; [exists []; eapply walk_end; [reflexivity|exact E]|]. exfalso.
    assert (I : In (lid x) L) by (eapply In_firstn; rewrite <- H, map_app; apply in_or_app; right; left; reflexivity).
    apply HL in I as (I1 & I2). apply in_ids in I1. apply precedes_blt in I2.
    assert (I : In (lid x) (filter (blt from) (map lid ls))) by (apply filter_In; auto).
    destruct (filter (blt from) (map lid ls)); [exact I|cbn in Hk; lia].
  - destruct (sorted_after ls ls from n) as [r p] eqn:E.
    destruct (ascending_exists ls (precedes from)) as (L & HL); [apply precedes_dec|exact Hd|].
    pose proof (c29_exact ls from n L Hd Hn HL) as H. rewrite E in H. destruct H as (H & _).
    destruct r as [|x r _] using rev_ind; [exists []; eapply walk_end; [reflexivity|exact E]|].
    assert (I : In (lid x) L) by (eapply In_firstn; rewrite <- H, map_app; apply in_or_app; right; left; reflexivity).
    apply HL in I as (I1 & I2). apply in_ids in I1. apply precedes_blt in I2.
    destruct (IH (lid x)) as (R & W).
    { assert (N1 : NoDup (lid x :: filter (blt (lid x)) (map lid ls))).
      { constructor; [|apply NoDup_filter, Hd]. intros C. apply filter_In in C as (_ & C). rewrite blt_irrefl in C. discriminate. }
      assert (Hi : incl (lid x :: filter (blt (lid x)) (map lid ls)) (filter (blt from) (map lid ls))).
      { intros y [<-|Hy]; [apply filter_In; auto|]. apply filter_In in Hy as (A & B). apply filter_In. split; [exact A|].
        apply (blt_trans _ _ _ I2 B). }
      pose proof (NoDup_incl_length N1 Hi) as C. cbn in C. lia. }
    exists (r ++ [x] ++ R). eapply walk_page; [reflexivity|exact E|exact W].
Qed.
Theorem c29_walk_ends : forall ls n, distinct ls -> (0 < n)%Z -> exists R, walk ls n [] R.
Proof. intros ls n Hd Hn. apply (walk_ex ls n Hd Hn (length (filter (blt []) (map lid ls)))). lia. Qed.

(** ** matching *)
Lemma meta_at_field meta k v : NoDup (map fst meta) -> meta_at meta k = v <-> field meta k v.
Proof.
  intros N. unfold meta_at, field. destruct (find _ _) as [[k' w]|] eqn:E.
  - apply find_some in E as (I & B). cbn in B. apply beq_true in B. subst k'. cbn. split.
    + intros <-. left. exact I.
    + intros [H|(-> & H)]; [|exfalso; apply (H w I)].
      clear - N I H. induction meta as [|[a b] m IH]; [destruct I|]. cbn in N. inv N.
      assert (X : forall u, In (k, u) m -> In k (map fst m)) by (intros u Hu; apply (in_map fst) in Hu; exact Hu).
      destruct I as [I|I], H as [H|H].
      * congruence.
      * injection I as -> ->. exfalso. apply H2, (X v), H.
      * injection H as -> ->. exfalso. apply H2, (X w), I.
      * apply IH; assumption.
  - assert (X : forall w, ~ In (k, w) meta).
    { intros w I. pose proof (find_none _ _ E _ I) as C. cbn in C. rewrite beq_refl in C. discriminate. }
    split; [intros <-; right; auto|]. intros [H|(-> & _)]; [exfalso; apply (X v H)|reflexivity].
Qed.

Lemma match_one_spec q sets l : (forall meta, lmeta l = Some meta -> NoDup (map fst meta)) ->
  match_one q sets l = true <-> selected q sets l.
Proof.
  intros HN. unfold match_one, selected. destruct (existsb (beq (lset l)) sets) eqn:E.
  - split; [intros _|reflexivity]. left. apply existsb_exists in E as (s & Hs & B). apply beq_true in B. congruence.
  - assert (NS : ~ In (lset l) sets).
    { intros I. assert (C : existsb (beq (lset l)) sets = true) by (apply existsb_exists; exists (lset l); split; [exact I|apply beq_refl]). congruence. }
    destruct (lmeta l) as [meta|] eqn:Em.
    2:{ split; [discriminate|]. intros [H|(_ & m & H & _)]; [contradiction|discriminate]. }
    destruct q as [|p q].
    { split; [discriminate|]. intros [H|(H & _)]; congruence. }
    rewrite forallb_forall. split.
    + intros H. right. split; [discriminate|]. exists meta. split; [reflexivity|]. intros k v I.
      specialize (H (k, v) I). cbn in H. apply beq_true in H. apply meta_at_field; auto.
    + intros [H|(_ & m & H & F)]; [contradiction|]. injection H as <-. intros [k v] I. cbn.
      apply beq_true, meta_at_field; auto.
Qed.

Lemma match_all_alt enum q sets : match_all enum q sets = map lid (filter (match_one q sets) enum).
Proof.
  unfold match_all. destruct q as [|p q]; [|reflexivity]. destruct sets; [|reflexivity].
  symmetry. induction enum as [|l ls IH]; [reflexivity|]. cbn [filter match_one existsb]. destruct (lmeta l); exact IH.
Qed.
Theorem c31_exact : forall enum q sets, distinct enum ->
  (forall l meta, In l enum -> lmeta l = Some meta -> NoDup (map fst meta)) ->
  (forall id, In id (match_all enum q sets) <-> exists l, In l enum /\ lid l = id /\ selected q sets l) /\
  NoDup (match_all enum q sets).
Proof.
  intros enum q sets Hd HN. rewrite match_all_alt. split.
  - intros id. rewrite in_map_iff. split.
    + intros (l & E & I). apply filter_In in I as (I & M). exists l. split; [exact I|]. split; [exact E|].
      apply match_one_spec in M; [exact M|]. intros meta; apply HN, I.
    + intros (l & I & E & M). exists l. split; [exact E|]. apply filter_In. split; [exact I|].
      apply match_one_spec; [|exact M]. intros meta; apply HN, I.
  - clear HN. induction enum as [|l ls IH]; [constructor|]. unfold distinct in Hd. cbn in Hd. inv Hd. cbn [filter].
    destruct (match_one q sets l); [|apply IH; assumption]. cbn. constructor; [|apply IH; assumption].
    intros C. apply H1. apply in_map_iff in C as (x & E & I). apply filter_In in I as (I & _). rewrite <- E. apply in_map, I.
Qed.
Theorem c31_nothing : forall enum, match_all enum [] [] = [].
Proof. reflexivity. Qed.

(** ** a collection is a map *)
Lemma by_id_filter m id id' : by_id (filter (fun x => negb (has_id id' x)) m) id = if beq id id' then None else by_id m id.
Proof.
  destruct (beq id id') eqn:E.
  - apply beq_true in E. subst id'. apply by_id_none. intros l Hl C. apply filter_In in Hl as (_ & Hl).
    unfold has_id in Hl. rewrite C, beq_refl in Hl. discriminate.
  - induction m as [|x m IH]; [reflexivity|]. cbn [filter by_id find]. unfold by_id in *.
    destruct (has_id id' x) eqn:Ex; cbn [negb].
    + replace (has_id id x) with false; [exact IH|]. symmetry. unfold has_id in *. apply beq_true in Ex.
      destruct (beq id (lid x)) eqn:Ey; [|reflexivity]. apply beq_true in Ey. rewrite <- Ey in Ex. subst id'.
      rewrite beq_refl in E. discriminate.
    + cbn [find]. destruct (has_id id x); [reflexivity|exact IH].
Qed.
Lemma by_id_add m l id : by_id (add m [l]) id = if beq id (lid l) then Some l else by_id m id.
Proof.
  change (by_id (add m [l]) id) with (if beq id (lid l) then Some l else by_id (filter (fun x => negb (has_id (lid l) x)) m) id).
  rewrite by_id_filter. destruct (beq id (lid l)); reflexivity.
Qed.
Lemma apply_distinct m c : distinct m -> distinct (ListsSpec.apply m c).
Proof.
  intros Hd. assert (F : forall id, distinct (filter (fun x => negb (has_id id x)) m)).
  { intros id. unfold distinct in *. induction m as [|x m IH]; [constructor|]. cbn in Hd. inv Hd. cbn [filter].
    destruct (negb (has_id id x)); [|auto]. cbn. constructor; [|auto]. intros C. apply H1.
    apply in_map_iff in C as (y & E & I). apply filter_In in I as (I & _). rewrite <- E. apply in_map, I. }
  destruct c as [l|id]; cbn [ListsSpec.apply add fold_left delete]; [|apply F].
  unfold add1, distinct. cbn [map]. constructor; [|apply F]. intros C. apply in_map_iff in C as (y & E & I).
  apply filter_In in I as (_ & I). unfold has_id in I. rewrite E, beq_refl in I. discriminate.
Qed.

Theorem c53_map : forall cs id l, by_id (fold_left ListsSpec.apply cs []) id = Some l <-> latest cs id l.
Proof.
  intros cs id l. induction cs as [|c cs IH] using rev_ind.
  - cbn. split; [discriminate|]. intros (old & new & E & _). destruct old; discriminate.
  - rewrite fold_left_app. cbn [fold_left].
    assert (Hstep : by_id (ListsSpec.apply (fold_left ListsSpec.apply cs []) c) id =
            match c with Put x => if beq id (lid x) then Some x else by_id (fold_left ListsSpec.apply cs []) id
                       | Drop d => if beq id d then None else by_id (fold_left ListsSpec.apply cs []) id end).
    { destruct c; [apply by_id_add|apply by_id_filter]. }
    rewrite Hstep. clear Hstep.
    assert (Keep : ~ about id c -> (latest (cs ++ [c]) id l <-> latest cs id l)).
    { intros NA. split.
      - intros (old & new & E & L & H). destruct new as [|y new] using rev_ind.
        + apply app_inj_tail in E as (_ & ->). exfalso. apply NA. exact L.
        + change (old ++ Put l :: new ++ [y]) with (old ++ (Put l :: new) ++ [y]) in E. rewrite app_assoc in E.
          apply app_inj_tail in E as (-> & <-). exists old, new. split; [reflexivity|]. split; [exact L|].
          intros d Hd. apply H, in_or_app. left. exact Hd.
      - intros (old & new & -> & L & H). exists old, (new ++ [c]). split; [rewrite <- app_assoc; reflexivity|]. split; [exact L|].
        intros d Hd. apply in_app_or in Hd as [Hd|[<-|[]]]; auto. }
    assert (Last : forall old new, cs ++ [c] = old ++ Put l :: new -> (forall d, In d new -> ~ about id d) -> about id c -> c = Put l).
    { intros old new E H A. destruct new as [|y new] using rev_ind.
      - apply app_inj_tail in E as (_ & <-). reflexivity.
      - exfalso. change (old ++ Put l :: new ++ [y]) with (old ++ (Put l :: new) ++ [y]) in E. rewrite app_assoc in E.
        apply app_inj_tail in E as (_ & <-). apply (H c); [apply in_or_app; right; left; reflexivity|exact A]. }
    destruct c as [x|d].
    + destruct (beq id (lid x)) eqn:E.
      * apply beq_true in E. split.
        -- intros H. injection H as ->. exists cs, []. split; [reflexivity|]. split; [auto|]. intros d [].
        -- intros (old & new & Ec & L & H). assert (C : Put x = Put l) by (apply (Last old new Ec H); cbn; auto). congruence.
      * rewrite IH, Keep; [reflexivity|]. cbn. intros C. subst id. rewrite beq_refl in E. discriminate.
    + destruct (beq id d) eqn:E.
      * apply beq_true in E. split; [discriminate|]. intros (old & new & Ec & L & H).
        assert (C : Drop d = Put l) by (apply (Last old new Ec H); cbn; auto). discriminate.
      * rewrite IH, Keep; [reflexivity|]. cbn. intros C. subst id. rewrite beq_refl in E. discriminate.
Qed.
Theorem c53_distinct : forall cs, distinct (fold_left ListsSpec.apply cs []).
Proof.
  intros cs. induction cs as [|c cs IH] using rev_ind; [constructor|]. rewrite fold_left_app. apply apply_distinct, IH.
Qed.
Definition known (m : list lst) (id : bytes) : bool := if in_dec (list_eq_dec ascii_dec) id (map lid m) then true else false.
Lemma exist_acc m ids acc :
  fold_left (fun r id => match by_id m id with Some _ => r ++ [id] | None => r end) ids acc = acc ++ filter (known m) ids.
Proof.
  revert acc. induction ids as [|id ids IH]; intros acc; cbn [fold_left filter]; [rewrite app_nil_r; reflexivity|]. rewrite IH.
  unfold known at 2. destruct (by_id m id) eqn:E; destruct (in_dec (list_eq_dec ascii_dec) id (map lid m)) as [I|I].
  - rewrite <- app_assoc. reflexivity.
  - exfalso. apply I. apply by_id_some in E as (A & <-). apply in_map, A.
  - exfalso. apply in_ids in I as (x & A & B). pose proof (proj1 (by_id_none m id) E x A). contradiction.
  - reflexivity.
Qed.
Theorem c53_lookup : forall m ids, distinct m ->
  Forall2 (fun id o => match o with Some l => In l m /\ lid l = id | None => forall l, In l m -> lid l <> id end) ids (by_ids m ids) /\
  exist m ids = filter (fun id => if in_dec (list_eq_dec ascii_dec) id (map lid m) then true else false) ids.
Proof.
  intros m ids Hd. split.
  - induction ids as [|id ids IH]; cbn; constructor; [|exact IH]. destruct (by_id m id) eqn:E; [apply by_id_some, E|apply by_id_none, E].
  - unfold exist. rewrite exist_acc. reflexivity.
Qed.
