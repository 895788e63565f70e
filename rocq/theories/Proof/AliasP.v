(** Lemmas on Model/Alias.v: what the edits in place leave in the slice of the call and in the array of the cache. *)
From Verif.Lib Require Import Prelude ListAux.
From Verif.Model Require Import Element Elements Segment Alias.
From Verif.Spec Require Import RankSpec.
From Verif.Proof Require Import ElementsP.
Open Scope nat_scope.

Definition fits (s : sl) : Prop := sl_len s <= length (sl_cells s).
Lemma fits_repr s : fits s -> exists a b lf, s = mkSl (a ++ b) (length a) lf.
Proof.
  intros H. destruct s as [c n lf]. exists (firstn n c), (skipn n c), lf. unfold fits in H. cbn in H.
  rewrite firstn_skipn, firstn_length. f_equal. lia.
Qed.
Lemma firstn_app_len {A} (a b : list A) : firstn (length a) (a ++ b) = a.
Proof. rewrite firstn_app, firstn_all, Nat.sub_diag. cbn. apply app_nil_r. Qed.
Lemma skipn_app_len {A} (a b : list A) : skipn (length a) (a ++ b) = b.
Proof. rewrite skipn_app, skipn_all, Nat.sub_diag. reflexivity. Qed.
Lemma cur_repr a b lf : cur (mkSl (a ++ b) (length a) lf) = a.
Proof. apply firstn_app_len. Qed.
Lemma fits_mk a b lf n : n = length a -> fits (mkSl (a ++ b) n lf).
Proof. intros ->. unfold fits. cbn. rewrite app_length. lia. Qed.
Lemma cur_mk a b lf n : n = length a -> cur (mkSl (a ++ b) n lf) = a.
Proof. intros ->. apply cur_repr. Qed.

(** the array that the cache shows *)
Definition arr (s : sl) : elements := match sl_left s with Some a => a | None => sl_cells s end.
Lemma seen_arr n s : seen n s = firstn n (arr s). Proof. reflexivity. Qed.

Lemma set_cell_mid a x y b : set_cell (length a) x (a ++ y :: b) = a ++ x :: b.
Proof.
  unfold set_cell. rewrite firstn_app_len. f_equal. f_equal.
  rewrite skipn_app, skipn_all2 by lia. replace (S (length a) - length a) with 1 by lia. reflexivity.
Qed.
Lemma append1_form g x a b lf :
  append1 g x (mkSl (a ++ b) (length a) lf) =
  match b with
  | _ :: b' => mkSl ((a ++ [x]) ++ b') (length (a ++ [x])) lf
  | [] => mkSl ((a ++ [x]) ++ repeat zero g) (length (a ++ [x])) (Some (match lf with Some l => l | None => a end))
  end.
Proof.
  unfold append1. cbn [sl_len sl_cells sl_left]. rewrite cur_repr.
  destruct b as [|y b'].
  - rewrite app_nil_r, (proj2 (Nat.ltb_ge _ _)) by lia. rewrite <- app_assoc, app_length. cbn [app length].
    rewrite Nat.add_1_r. destruct lf; reflexivity.
  - rewrite (proj2 (Nat.ltb_lt _ _)) by (rewrite app_length; cbn; lia). rewrite set_cell_mid, <- app_assoc, app_length.
    cbn [app length]. rewrite Nat.add_1_r. reflexivity.
Qed.
(** room is made at [length a] and the new element put there *)
Lemma open_form a m b x z :
  set_cell (length a) x (copy_to (S (length a)) (length a) (length a + length m) (a ++ m ++ z :: b)) = a ++ x :: m ++ b.
Proof.
  unfold copy_to. rewrite !app_length. cbn [length].
  replace (Nat.min (length a + length m - length a) (length a + (length m + S (length b)) - S (length a))) with (length m) by lia.
  rewrite skipn_app_len, firstn_app_len.
  assert (E : skipn (S (length a) + length m) (a ++ m ++ z :: b) = b).
  { rewrite app_assoc. replace (a ++ m) with (a ++ m) by reflexivity.
    rewrite skipn_app, skipn_all2 by (rewrite app_length; lia). rewrite app_length.
    replace (S (length a) + length m - (length a + length m)) with 1 by lia. reflexivity. }
  rewrite E.
  assert (E2 : exists y, firstn (S (length a)) (a ++ m ++ z :: b) = a ++ [y]).
  { rewrite firstn_app, firstn_all2 by lia. replace (S (length a) - length a) with 1 by lia.
    destruct m as [|m0 m']; cbn [app firstn]; eexists; reflexivity. }
  destruct E2 as [y ->]. rewrite <- app_assoc. cbn [app]. apply set_cell_mid.
Qed.

Lemma insert_at_form g x lf : forall a2 a1 b fuel, length a2 < fuel ->
  insert_at fuel g x (length a1) (mkSl ((a1 ++ a2) ++ b) (length (a1 ++ a2)) lf) =
  match b with
  | _ :: b' => mkSl ((a1 ++ fst (insert_elem x a2)) ++ b') (S (length (a1 ++ a2))) lf
  | [] => mkSl ((a1 ++ fst (insert_elem x a2)) ++ repeat zero g) (S (length (a1 ++ a2))) (Some (match lf with Some l => l | None => a1 ++ a2 end))
  end.
Proof.
  induction a2 as [|y a2 IH]; intros a1 b fuel Hf; (destruct fuel as [|f]; [cbn in Hf; lia|]); cbn [insert_at sl_len sl_cells].
  - rewrite app_nil_r, Nat.ltb_irrefl. rewrite append1_form. cbn [insert_elem fst]. rewrite app_length. cbn [length]. rewrite Nat.add_1_r.
    reflexivity.
  - rewrite (proj2 (Nat.ltb_lt _ _)) by (rewrite app_length; cbn; lia).
    rewrite <- app_assoc, nth_error_app2, Nat.sub_diag by lia. cbn [app nth_error insert_elem].
    destruct (above y x) eqn:E.
    + specialize (IH (a1 ++ [y]) b f ltac:(cbn in Hf; lia)).
      rewrite app_length in IH. cbn [length] in IH. rewrite Nat.add_1_r in IH.
      rewrite <- !app_assoc in IH. cbn [app] in IH. rewrite <- ?app_assoc. cbn [app]. rewrite IH.
      destruct (insert_elem x a2) as [r' i]. cbn [fst]. destruct b; rewrite <- ?app_assoc; reflexivity.
    + cbn [fst]. 
      replace (a1 ++ y :: a2 ++ b) with ((a1 ++ y :: a2) ++ b) by (rewrite <- app_assoc; reflexivity).
      rewrite append1_form.
      destruct b as [|z b']; cbn [sl_len sl_cells set_cells sl_left];
        rewrite (app_length (a1 ++ y :: a2) [zero]); cbn [length];
        replace (length (a1 ++ y :: a2) + 1 - 1) with (length a1 + length (y :: a2)) by (rewrite app_length; lia);
        rewrite <- !app_assoc; change ([zero] ++ ?l) with (zero :: l); rewrite open_form; unfold set_cells; cbn [sl_len sl_left];
        rewrite Nat.add_1_r; reflexivity.
Qed.
Lemma sl_insert_form g x a b lf :
  sl_insert g x (mkSl (a ++ b) (length a) lf) =
  match b with
  | _ :: b' => mkSl (fst (insert_elem x a) ++ b') (S (length a)) lf
  | [] => mkSl (fst (insert_elem x a) ++ repeat zero g) (S (length a)) (Some (match lf with Some l => l | None => a end))
  end.
Proof. exact (insert_at_form g x lf a [] b (S (length a)) ltac:(lia)). Qed.
Lemma insert_elem_len x a : length (fst (insert_elem x a)) = S (length a).
Proof. induction a as [|y a IH]; cbn; [reflexivity|]. destruct (above y x); cbn; [|reflexivity]. destruct (insert_elem x a). cbn in *. lia. Qed.

Lemma copy_down a y m b : copy_to (length a) (S (length a)) (length (a ++ y :: m)) ((a ++ y :: m) ++ b) =
  (a ++ m) ++ skipn (length (a ++ m)) ((a ++ y :: m) ++ b).
Proof.
  unfold copy_to. rewrite !app_length. cbn [length].
  replace (Nat.min (length a + S (length m) - S (length a)) (length a + S (length m) + length b - length a)) with (length m) by lia.
  rewrite <- !app_assoc, firstn_app_len. f_equal. cbn [app]. f_equal.
  rewrite skipn_app, skipn_all2 by lia. replace (S (length a) - length a) with 1 by lia. cbn [app skipn]. apply firstn_app_len.
Qed.
Lemma delete_found id : forall a,
  match find_idx_id a id with
  | Some i => exists a1 y a2, a = a1 ++ y :: a2 /\ length a1 = i /\ delete_elem id a = Ok (a1 ++ a2)
  | None => delete_elem id a = NotFound
  end.
Proof.
  unfold find_idx_id. induction a as [|x a IH]; cbn; [reflexivity|].
  destruct (N.eqb (e_id x) id); [exists [], x, a; repeat split; reflexivity|].
  destruct (find_idx _ a) as [i|].
  - destruct IH as (a1 & y & a2 & -> & <- & ->). exists (x :: a1), y, a2. repeat split; reflexivity.
  - rewrite IH. reflexivity.
Qed.
Lemma sl_delete_form id a b lf :
  sl_delete id (mkSl (a ++ b) (length a) lf) =
  match delete_elem id a with
  | Ok a' => Ok (mkSl (a' ++ skipn (length a') (a ++ b)) (length a') lf)
  | NotFound => NotFound
  end.
Proof.
  unfold sl_delete. rewrite cur_repr. pose proof (delete_found id a) as H. destruct (find_idx_id a id) as [i|].
  - destruct H as (a1 & y & a2 & -> & <- & ->). cbn [sl_len sl_cells sl_left]. rewrite copy_down. do 2 f_equal.
    rewrite !app_length. cbn [length]. lia.
  - rewrite H. reflexivity.
Qed.
Lemma delete_elem_len id : forall a a', delete_elem id a = Ok a' -> length a = S (length a').
Proof.
  induction a as [|x a IH]; cbn; intros a' H; [discriminate|].
  destruct (N.eqb (e_id x) id); [inv H; reflexivity|]. destruct (delete_elem id a); [|discriminate]. inv H. cbn. f_equal. apply IH. reflexivity.
Qed.
Lemma skipn_last {A} (a b : list A) n : length a = S n -> exists z, skipn n (a ++ b) = z :: b.
Proof.
  intros H. rewrite skipn_app, H. replace (n - S n) with 0 by lia. cbn [skipn].
  assert (L : length (skipn n a) = 1) by (rewrite skipn_length; lia).
  destruct (skipn n a) as [|z [|]]; try discriminate. exists z. reflexivity.
Qed.
(** an update never moves the slice *)
Lemma sl_update_form g now e a b lf :
  sl_update g now e (mkSl (a ++ b) (length a) lf) =
  match update_elem now e a with
  | Ok (a', _) => Ok (mkSl (a' ++ b) (length a) lf)
  | NotFound => NotFound
  end.
Proof.
  unfold sl_update, update_elem. cbv zeta. rewrite sl_delete_form.
  destruct (delete_elem (e_id (with_time now e)) a) as [a1|] eqn:E; [|reflexivity].
  apply delete_elem_len in E. destruct (skipn_last a b _ E) as [z ->]. rewrite sl_insert_form.
  destruct (insert_elem (with_time now e) a1) as [a' i] eqn:Ei. cbn [fst]. rewrite E. reflexivity.
Qed.
Lemma update_elem_len now e a a' r : update_elem now e a = Ok (a', r) -> length a' = length a.
Proof.
  unfold update_elem. cbv zeta. destruct (delete_elem _ a) as [a1|] eqn:E; [|discriminate]. intros H.
  pose proof (insert_elem_len (with_time now e) a1) as L. destruct (insert_elem _ a1) as [a2 i]. inv H. cbn in L. apply delete_elem_len in E. lia.
Qed.
(** an addition moves it if there is no cell left *)
Lemma with_time_time now e : with_time now (with_time now e) = with_time now e.
Proof. unfold with_time. destruct (N.eqb (e_upd e) 0) eqn:E; cbn [e_upd]; [destruct (N.eqb now 0) eqn:E2; [|reflexivity]|rewrite E; reflexivity].
  apply N.eqb_eq in E2. subst. reflexivity. Qed.
Lemma sl_add_form g now e a b lf :
  sl_add g now e (mkSl (a ++ b) (length a) lf) =
  match add_elem now e a with
  | Ok (a', _) => Ok (if Nat.eqb (length a') (length a) then mkSl (a' ++ b) (length a) lf
                      else match b with
                           | _ :: b' => mkSl (a' ++ b') (S (length a)) lf
                           | [] => mkSl (a' ++ repeat zero g) (S (length a)) (Some (match lf with Some l => l | None => a end))
                           end)
  | NotFound => NotFound
  end.
Proof.
  unfold sl_add, add_elem. cbv zeta. rewrite cur_repr. destruct (find_idx_id a _) as [i|].
  - rewrite sl_update_form. destruct (update_elem now (with_time now e) a) as [[a' r]|] eqn:E; [|reflexivity].
    apply update_elem_len in E. rewrite E, Nat.eqb_refl. reflexivity.
  - rewrite sl_insert_form. pose proof (insert_elem_len (with_time now e) a) as L.
    destruct (insert_elem (with_time now e) a) as [a' i]. cbn [fst] in *. rewrite L.
    rewrite (proj2 (Nat.eqb_neq _ _)) by lia. reflexivity.
Qed.

Lemma skipn_cons_nth {A} (l : list A) n z r : skipn n l = z :: r -> skipn (S n) l = r.
Proof. revert n. induction l as [|x l IH]; intros [|n] H; cbn in *; try discriminate; [inv H; reflexivity|]. apply IH. exact H. Qed.
Lemma skipn_nonnil {A} (l : list A) n : n < length l -> exists z r, skipn n l = z :: r.
Proof. intros H. destruct (skipn n l) eqn:E; [|eauto]. apply (f_equal (@length A)) in E. rewrite skipn_length in E. cbn in E. lia. Qed.
Lemma compact_form p : forall a2 a1 b,
  compact (length a2) p (length a1) (length (filter p a1)) (filter p a1 ++ skipn (length (filter p a1)) (a1 ++ a2 ++ b)) =
  (filter p (a1 ++ a2) ++ skipn (length (filter p (a1 ++ a2))) (a1 ++ a2 ++ b), length (filter p (a1 ++ a2))).
Proof.
  assert (FL : forall l, length (filter p l) <= length l) by (induction l as [|x l IH]; cbn; [lia|]; destruct (p x); cbn; lia).
  induction a2 as [|y a2 IH]; intros a1 b; cbn [compact length].
  - rewrite app_nil_r. reflexivity.
  - assert (En : nth_error (filter p a1 ++ skipn (length (filter p a1)) (a1 ++ (y :: a2) ++ b)) (length a1) = Some y).
    { rewrite nth_error_app2 by apply FL. 
      assert (S : forall (l : elements) k n, nth_error (skipn k l) n = nth_error l (k + n)).
      { induction l as [|? l IHl]; intros [|k] n; cbn; try reflexivity; [destruct n; reflexivity|apply IHl]. }
      rewrite S. replace (length (filter p a1) + (length a1 - length (filter p a1))) with (length a1) by (specialize (FL a1); lia).
      rewrite nth_error_app2, Nat.sub_diag by lia. reflexivity. }
    rewrite En. specialize (IH (a1 ++ [y]) b).
    replace (a1 ++ (y :: a2) ++ b) with ((a1 ++ [y]) ++ a2 ++ b) by (rewrite <- app_assoc; reflexivity).
    replace (a1 ++ y :: a2) with ((a1 ++ [y]) ++ a2) by (rewrite <- app_assoc; reflexivity).
    rewrite app_length in IH. cbn [length] in IH. rewrite Nat.add_1_r in IH.
    rewrite <- IH. rewrite filter_app. cbn [filter].
    destruct (p y) eqn:E.
    + rewrite app_length. cbn [length]. rewrite Nat.add_1_r. f_equal.
      destruct (skipn_nonnil ((a1 ++ [y]) ++ a2 ++ b) (length (filter p a1))) as (z & r & Es).
      { rewrite !app_length. cbn. specialize (FL a1). lia. }
      rewrite Es, set_cell_mid, (skipn_cons_nth _ _ _ _ Es), <- app_assoc. reflexivity.
    + rewrite app_nil_r. reflexivity.
Qed.
Lemma sl_filter_form p a b lf :
  sl_filter p (mkSl (a ++ b) (length a) lf) = mkSl (filter p a ++ skipn (length (filter p a)) (a ++ b)) (length (filter p a)) lf.
Proof. unfold sl_filter. cbn [sl_len sl_cells sl_left]. pose proof (compact_form p a [] b) as H. cbn in H. rewrite H. reflexivity. Qed.

Lemma appends_form : forall ins a b lf, length ins <= length b ->
  fold_left (fun s x => append1 0 x s) ins (mkSl (a ++ b) (length a) lf) = mkSl ((a ++ ins) ++ skipn (length ins) b) (length (a ++ ins)) lf.
Proof.
  induction ins as [|x ins IH]; intros a b lf H; cbn [fold_left].
  - rewrite app_nil_r. reflexivity.
  - destruct b as [|z b]; [cbn in H; lia|]. rewrite append1_form, IH by (cbn in H; lia). cbn [length skipn]. rewrite <- !app_assoc. reflexivity.
Qed.
Lemma merge_at_form lf : forall fuel a1 a2 b next ins r,
  merge_inplace fuel a2 next ins = Some r -> S (length ins) <= length b ->
  merge_at fuel (length a1) next ins (mkSl ((a1 ++ a2) ++ b) (length (a1 ++ a2)) lf) =
  mkSl ((a1 ++ r) ++ skipn (S (length ins)) b) (length (a1 ++ r)) lf.
Proof.
  induction fuel as [|f IH]; intros a1 a2 b next ins r Hr Hb; [discriminate|].
  cbn [merge_inplace] in Hr. cbn [merge_at sl_len sl_cells].
  destruct a2 as [|y a2].
  - rewrite app_nil_r, Nat.ltb_irrefl. inv Hr. apply appends_form. exact Hb.
  - rewrite (proj2 (Nat.ltb_lt _ _)) by (rewrite app_length; cbn; lia).
    rewrite <- app_assoc, nth_error_app2, Nat.sub_diag by lia. cbn [app nth_error].
    destruct (aboveP y next) eqn:E.
    + destruct (merge_inplace f a2 next ins) as [r2|] eqn:E2; [|discriminate]. inv Hr.
      specialize (IH (a1 ++ [y]) a2 b next ins r2 E2 Hb). rewrite app_length in IH. cbn [length] in IH. rewrite Nat.add_1_r in IH.
      rewrite <- !app_assoc in IH. cbn [app] in IH. rewrite <- !app_assoc. cbn [app]. exact IH.
    + destruct b as [|z b]; [cbn in Hb; lia|].
      replace (a1 ++ y :: a2 ++ z :: b) with ((a1 ++ y :: a2) ++ z :: b) by (rewrite <- app_assoc; reflexivity).
      rewrite append1_form. cbn [sl_len sl_cells]. rewrite (app_length (a1 ++ y :: a2) [zero]). cbn [length].
      replace (length (a1 ++ y :: a2) + 1 - 1) with (length a1 + length (y :: a2)) by (rewrite app_length; lia).
      rewrite <- (app_assoc (a1 ++ y :: a2) [zero] b), <- (app_assoc a1 (y :: a2)). change ([zero] ++ ?l) with (zero :: l).
      rewrite open_form. unfold set_cells. cbn [sl_len sl_left].
      destruct ins as [|n' ins'].
      * inv Hr. cbn [length skipn]. rewrite <- app_assoc. cbn [app]. f_equal. rewrite !app_length. cbn [length]. lia.
      * specialize (IH a1 (next :: y :: a2) b n' ins' r Hr ltac:(cbn in Hb; lia)).
        rewrite <- (app_assoc a1 (next :: y :: a2)) in IH. cbn [app] in IH.
        replace (length (a1 ++ y :: a2) + 1) with (length (a1 ++ next :: y :: a2)) by (rewrite !app_length; cbn [length]; lia).
        cbn [app]. rewrite IH. reflexivity.
Qed.
Lemma merge_copy_len l ins : length (merge_copy l ins) = length l + length ins.
Proof. rewrite <- app_length. apply Permutation_length, merge_copy_perm. Qed.
Lemma sl_merge_form ins a b lf : ranked ins ->
  sl_merge ins (mkSl (a ++ b) (length a) lf) =
  match ins with
  | [] => mkSl (a ++ b) (length a) lf
  | _ => if Nat.ltb 1000 (length ins + length a) || Nat.ltb 10 (length ins) || Nat.ltb (length b) (length ins)
         then mkSl (merge_copy a ins) (length (merge_copy a ins)) (Some (match lf with Some l => l | None => a ++ b end))
         else mkSl (merge_copy a ins ++ skipn (length ins) b) (length (merge_copy a ins)) lf
  end.
Proof.
  intros Hr. destruct ins as [|n r]; [reflexivity|]. unfold sl_merge. cbv zeta. cbn [sl_len sl_cells sl_left]. rewrite cur_repr.
  set (ins := n :: r) in *.
  replace (Nat.ltb (length (a ++ b)) (length ins + length a)) with (Nat.ltb (length b) (length ins)).
  2: { apply Bool.eq_true_iff_eq. rewrite !Nat.ltb_lt, app_length. lia. }
  destruct (_ || _ || _) eqn:E.
  - rewrite merge_copy_len. f_equal. lia.
  - apply orb_false_elim in E as [_ E]. apply Nat.ltb_ge in E.
    assert (Hm : merge_inplace (S (length a + 2 * length ins)) a n r = Some (merge_copy a ins)).
    { apply merge_inplace_copy; [exact Hr|]. unfold ins. cbn [length]. lia. }
    pose proof (merge_at_form lf _ [] a b n r _ Hm E) as H. cbn [app length] in H. exact H.
Qed.
