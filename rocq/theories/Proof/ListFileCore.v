(** Which stored names a server's descriptors may still use: the part of the invariant of C62 that
    speaks of names only. *)
From Coq Require Import Strings.String Strings.Ascii.
From Verif.Lib Require Import Prelude ListAux ListLemmas Bytes.
From Verif.Model Require Import Element Elements Segment List Keys Storage ListFile.
From Verif.Spec Require Import RankSpec QuerySpec HistorySpec StorageSpec ListFileSpec.
Open Scope N_scope.

(** for every ID that is not lost: whether the index is there, and the list *)
Definition ghost := string -> option (bool * lst).
Definition lives (G : ghost) (x : desc) (n : string) : Prop :=
  exists b l, G (ds_id x) = Some (b, l) /\ (n = ds_scores x \/ b = true /\ n = ds_index x).
Definition lost (s : sys) (G : ghost) (n : string) : Prop :=
  plain n /\ y_st s (lit n) = None /\ forall x, In x (descs s) -> ~ lives G x n.
Definition dead (s : sys) (G : ghost) (x : desc) : Prop := ds_scores x = ""%string \/ lost s G (ds_scores x).
Definition same (x y : desc) : Prop := ds_id x = ds_id y /\ ds_merge x = ds_merge y /\ ds_split x = ds_split y /\ ds_scores x = ds_scores y.
Definition tied (s : sys) (G : ghost) (x : desc) : Prop :=
  dead s G x \/ exists y, In y (descs s) /\ G (ds_id y) <> None /\ same x y /\ (ds_index x = ds_index y \/ lost s G (ds_index x)).
Definition aside (s : sys) : list desc := y_file s ++ encoded s.

Record core (s : sys) (G : ghost) : Prop := {
  c_ids : NoDup (ids s);
  c_plain : forall x n, In x (descs s) -> lives G x n -> plain n;
  c_apart : forall x y n, In x (descs s) -> In y (descs s) -> lives G x n -> lives G y n -> ds_id x = ds_id y;
  c_cold : forall x, In x (descs s) -> G (ds_id x) = None -> dead s G x;
  c_bare : forall x l, In x (descs s) -> G (ds_id x) = Some (false, l) -> lost s G (ds_index x);
  c_two : forall x l, In x (descs s) -> G (ds_id x) = Some (true, l) -> ds_scores x <> ds_index x;
  c_tied : forall x, In x (aside s) -> tied s G x
}.

Lemma nodup_desc (l : list desc) x y : NoDup (map ds_id l) -> In x l -> In y l -> ds_id x = ds_id y -> x = y.
Proof.
  induction l as [|z l IH]; cbn [map]; intros H Hx Hy E; [destruct Hx|]. apply NoDup_cons_iff in H as (H1 & H2).
  destruct Hx as [->|Hx], Hy as [->|Hy]; auto; exfalso; apply H1; [rewrite E|rewrite <- E]; apply in_map; assumption.
Qed.
Lemma descs_uniq s G x y : core s G -> In x (descs s) -> In y (descs s) -> ds_id x = ds_id y -> x = y.
Proof. intros H. apply nodup_desc, H. Qed.
Lemma find_desc_In id l x : find_desc id l = Some x -> In x l /\ ds_id x = id.
Proof. intros H. apply find_some in H as (A & B). apply String.eqb_eq in B. auto. Qed.
Lemma find_desc_of l x : NoDup (map ds_id l) -> In x l -> find_desc (ds_id x) l = Some x.
Proof.
  intros Hn Hx. unfold find_desc. destruct (find _ l) as [y|] eqn:E.
  - apply find_some in E as (A & B). apply String.eqb_eq in B. f_equal. eapply nodup_desc; eauto.
  - pose proof (find_none _ _ E x Hx) as C. cbn in C. rewrite String.eqb_refl in C. discriminate.
Qed.
Lemma find_desc_none id l : find_desc id l = None -> ~ In id (map ds_id l).
Proof.
  intros E C. apply in_map_iff in C as (x & <- & Hx). pose proof (find_none _ _ E x Hx) as D. cbn in D. rewrite String.eqb_refl in D. discriminate.
Qed.

Lemma known_desc s x n : In x (descs s) \/ In x (aside s) -> In n (names_of x) -> In n (known_names s).
Proof.
  intros H Hn. unfold known_names. apply in_flat_map. exists x. split; [|exact Hn].
  unfold aside in H. rewrite !in_app_iff in *. tauto.
Qed.
Lemma lives_known s G x n : In x (descs s) -> lives G x n -> In n (known_names s).
Proof. intros Hx (b & l & _ & [->|(_ & ->)]); apply (known_desc s x); auto; cbn; auto. Qed.

(** one list is changed: [i0] is its ID, [T] the names that are written *)
Record change (s : sys) (G : ghost) (s' : sys) (G' : ghost) (i0 : string) (T : list string) : Prop := {
  h_descs : forall x, ds_id x <> i0 -> (In x (descs s') <-> In x (descs s));
  h_ghost : forall i, i <> i0 -> G' i = G i;
  h_ids : NoDup (ids s');
  h_store : forall n, plain n -> ~ In n T -> y_st s' (lit n) = y_st s (lit n);
  h_touch : forall n, In n T -> ~ In n (known_names s) \/ exists y, In y (descs s) /\ ds_id y = i0 /\ lives G y n;
  h_names : forall y n, In y (descs s') -> ds_id y = i0 -> lives G' y n ->
    plain n /\ (~ In n (known_names s) \/ exists z, In z (descs s) /\ ds_id z = i0 /\ lives G z n);
  h_gone : forall y n, In y (descs s) -> ds_id y = i0 -> lives G y n ->
    (forall z, In z (descs s') -> ds_id z = i0 -> ~ lives G' z n) -> y_st s' (lit n) = None;
  h_same : forall y z, In y (descs s) -> In z (descs s') -> ds_id y = i0 -> ds_id z = i0 -> G i0 <> None -> lives G' z (ds_scores y) -> same y z;
  h_full : forall y, In y (descs s') -> ds_id y = i0 -> (exists l, G' i0 = Some (true, l)) /\ ds_scores y <> ds_index y;
  h_aside : forall x, In x (aside s') -> In x (aside s) \/ ds_scores x = ""%string \/ In x (descs s')
}.

Section Change.
  Context (s : sys) (G : ghost) (s' : sys) (G' : ghost) (i0 : string) (T : list string) (HC : core s G) (HH : change s G s' G' i0 T).

  Lemma lives_other x n : ds_id x <> i0 -> (lives G' x n <-> lives G x n).
  Proof using HH. intros H. unfold lives. rewrite (h_ghost _ _ _ _ _ _ HH _ H). tauto. Qed.

  Lemma lost_keep n : In n (known_names s) -> lost s G n -> lost s' G' n.
  Proof using HC HH.
    intros Hk (P & E & L). split; [exact P|]. split.
    - rewrite (h_store _ _ _ _ _ _ HH n P); [exact E|]. intros C. apply (h_touch _ _ _ _ _ _ HH) in C as [C|(y & Hy & _ & Hl)]; [auto|].
      apply (L y Hy Hl).
    - intros x Hx Hl. destruct (string_dec (ds_id x) i0) as [Ei|Ei].
      + destruct (h_names _ _ _ _ _ _ HH x n Hx Ei Hl) as (_ & [C|(z & Hz & _ & Hl')]); [auto|]. apply (L z Hz Hl').
      + apply (lives_other _ _ Ei) in Hl. apply (h_descs _ _ _ _ _ _ HH x Ei) in Hx. apply (L x Hx Hl).
  Qed.
  Lemma dead_keep x : In x (descs s) \/ In x (aside s) -> dead s G x -> dead s' G' x.
  Proof using HC HH.
    intros Hx [E|L]; [left; exact E|]. right. apply lost_keep; [|exact L]. apply (known_desc s x _ Hx). cbn. auto.
  Qed.
  (** a name of the changed list that is given up *)
  Lemma lost_gone y n : In y (descs s) -> ds_id y = i0 -> lives G y n ->
    (forall z, In z (descs s') -> ds_id z = i0 -> ~ lives G' z n) -> lost s' G' n.
  Proof using HC HH.
    intros Hy Ei Hl Hz. split; [apply (c_plain _ _ HC y n Hy Hl)|]. split; [apply (h_gone _ _ _ _ _ _ HH y n Hy Ei Hl Hz)|].
    intros x Hx Hlx. destruct (string_dec (ds_id x) i0) as [Ex|Ex]; [apply (Hz x Hx Ex Hlx)|].
    apply (lives_other _ _ Ex) in Hlx. apply (h_descs _ _ _ _ _ _ HH x Ex) in Hx.
    apply Ex. rewrite <- Ei. apply (c_apart _ _ HC x y n Hx Hy Hlx Hl).
  Qed.
  Lemma lives_dec x n : lives G' x n \/ ~ lives G' x n.
  Proof using.
    unfold lives. destruct (G' (ds_id x)) as [(b & l)|].
    - destruct (string_dec n (ds_scores x)) as [E|E]; [left; eauto|]. destruct (string_dec n (ds_index x)) as [F|F], b;
        [left; exists true, l; auto|right|right|right]; intros (b' & l' & X & [Y|(Z & Y)]); congruence.
    - right. intros (b & l & X & _). discriminate.
  Qed.
  Lemma tied_keep x : In x (aside s) -> tied s G x -> tied s' G' x.
  Proof using HC HH.
    intros Hx [D|(y & Hy & Hg & Hs & Hi)]; [left; apply dead_keep; auto|].
    assert (Hk : In (ds_index x) (known_names s)) by (apply (known_desc s x); [right; exact Hx|cbn; auto]).
    destruct (string_dec (ds_id y) i0) as [Ei|Ei]; swap 1 2.
    { right. exists y. split; [apply (h_descs _ _ _ _ _ _ HH y Ei), Hy|]. split; [rewrite (h_ghost _ _ _ _ _ _ HH _ Ei); exact Hg|]. split; [exact Hs|].
      destruct Hi as [Hi|Hi]; [left; exact Hi|right; apply lost_keep; assumption]. }
    destruct (G (ds_id y)) as [(b & l)|] eqn:Eg; [|contradiction].
    assert (Hls : lives G y (ds_scores y)) by (exists b, l; auto).
    assert (Hdec : (exists z, In z (descs s') /\ ds_id z = i0 /\ lives G' z (ds_scores y)) \/ forall z, In z (descs s') -> ds_id z = i0 -> ~ lives G' z (ds_scores y)).
    { destruct (find_desc i0 (descs s')) as [z|] eqn:Ez.
      - apply find_desc_In in Ez as (Hz & Ez). destruct (lives_dec z (ds_scores y)) as [L|L]; [left; eauto|].
        right. intros z' Hz' Ez' L'. rewrite (nodup_desc _ z' z (h_ids _ _ _ _ _ _ HH) Hz' Hz) in L' by congruence. contradiction.
      - right. intros z Hz E. apply find_desc_none in Ez. exfalso. apply Ez. rewrite <- E. apply in_map, Hz. }
    destruct Hdec as [(z & Hz & Ez & Lz)|Hno].
    - assert (Hsz : same y z) by (apply (h_same _ _ _ _ _ _ HH y z Hy Hz Ei Ez); [rewrite <- Ei, Eg; discriminate|exact Lz]).
      destruct (h_full _ _ _ _ _ _ HH z Hz Ez) as ((lz & Egz) & _).
      right. exists z. split; [exact Hz|]. split; [rewrite Ez, Egz; discriminate|]. split.
      { destruct Hs as (S1 & S2 & S3 & S4), Hsz as (Z1 & Z2 & Z3 & Z4). repeat split; congruence. }
      destruct Hi as [Hi|Hi]; [|right; apply lost_keep; assumption].
      destruct b.
      + destruct (string_dec (ds_index y) (ds_index z)) as [E|E]; [left; congruence|]. right. rewrite Hi.
        apply (lost_gone y); [exact Hy|exact Ei|exists true, l; auto|]. intros z' Hz' Ez' L'.
        rewrite (nodup_desc _ z' z (h_ids _ _ _ _ _ _ HH) Hz' Hz) in L' by congruence. destruct L' as (b' & l' & X & [Y|(_ & Y)]); [|congruence].
        destruct Hsz as (_ & _ & _ & Z4). rewrite <- Z4 in Y. apply (c_two _ _ HC y l Hy Eg). congruence.
      + right. rewrite Hi in *. apply lost_keep; [exact Hk|]. apply (c_bare _ _ HC y l Hy Eg).
    - left. right. destruct Hs as (_ & _ & _ & ->). apply (lost_gone y _ Hy Ei Hls Hno).
  Qed.
  Lemma core_change : core s' G'.
  Proof using HC HH.
    assert (Hback : forall x n, In x (descs s') -> lives G' x n -> ~ In n (known_names s) /\ ds_id x = i0 \/
        exists y, In y (descs s) /\ ds_id y = ds_id x /\ lives G y n).
    { intros x n Hx Hl. destruct (string_dec (ds_id x) i0) as [Ei|Ei].
      - destruct (h_names _ _ _ _ _ _ HH x n Hx Ei Hl) as (_ & [C|(z & Hz & Ez & Hl')]); [auto|]. right. exists z. split; [exact Hz|]. split; [congruence|exact Hl'].
      - right. exists x. split; [apply (h_descs _ _ _ _ _ _ HH x Ei), Hx|]. split; [reflexivity|]. apply (lives_other _ _ Ei), Hl. }
    split.
    - apply (h_ids _ _ _ _ _ _ HH).
    - intros x n Hx Hl. destruct (string_dec (ds_id x) i0) as [Ei|Ei]; [apply (h_names _ _ _ _ _ _ HH x n Hx Ei Hl)|].
      apply (c_plain _ _ HC x n); [apply (h_descs _ _ _ _ _ _ HH x Ei), Hx|apply (lives_other _ _ Ei), Hl].
    - intros x y n Hx Hy Lx Ly. destruct (Hback x n Hx Lx) as [(Nx & Ex)|(x' & Hx' & Ex & Lx')], (Hback y n Hy Ly) as [(Ny & Ey)|(y' & Hy' & Ey & Ly')].
      + congruence.
      + exfalso. apply Nx. apply (lives_known s G y'); assumption.
      + exfalso. apply Ny. apply (lives_known s G x'); assumption.
      + rewrite <- Ex, <- Ey. apply (c_apart _ _ HC x' y' n); assumption.
    - intros x Hx Eg. destruct (string_dec (ds_id x) i0) as [Ei|Ei].
      + destruct (h_full _ _ _ _ _ _ HH x Hx Ei) as ((l & E) & _). rewrite Ei in Eg. congruence.
      + apply (h_descs _ _ _ _ _ _ HH x Ei) in Hx. rewrite (h_ghost _ _ _ _ _ _ HH _ Ei) in Eg. apply dead_keep; [auto|]. apply (c_cold _ _ HC x Hx Eg).
    - intros x l Hx Eg. destruct (string_dec (ds_id x) i0) as [Ei|Ei].
      + destruct (h_full _ _ _ _ _ _ HH x Hx Ei) as ((l' & E) & _). rewrite Ei in Eg. congruence.
      + apply (h_descs _ _ _ _ _ _ HH x Ei) in Hx. rewrite (h_ghost _ _ _ _ _ _ HH _ Ei) in Eg. apply lost_keep; [|apply (c_bare _ _ HC x l Hx Eg)].
        apply (known_desc s x); [auto|cbn; auto].
    - intros x l Hx Eg. destruct (string_dec (ds_id x) i0) as [Ei|Ei].
      + apply (h_full _ _ _ _ _ _ HH x Hx Ei).
      + apply (h_descs _ _ _ _ _ _ HH x Ei) in Hx. rewrite (h_ghost _ _ _ _ _ _ HH _ Ei) in Eg. apply (c_two _ _ HC x l Hx Eg).
    - intros x Hx. apply (h_aside _ _ _ _ _ _ HH) in Hx as [Hx|[Hx|Hx]].
      + apply tied_keep; [exact Hx|]. apply (c_tied _ _ HC x Hx).
      + left. left. exact Hx.
      + (* a current descriptor *)
        destruct (string_dec (ds_id x) i0) as [Ei|Ei].
        * destruct (h_full _ _ _ _ _ _ HH x Hx Ei) as ((l & E) & _). right. exists x. split; [exact Hx|]. split; [rewrite Ei, E; discriminate|]. split; [repeat split|auto].
        * destruct (G' (ds_id x)) as [g|] eqn:Eg.
          -- right. exists x. split; [exact Hx|]. split; [congruence|]. split; [repeat split|auto].
          -- left. rewrite (h_ghost _ _ _ _ _ _ HH _ Ei) in Eg. apply (h_descs _ _ _ _ _ _ HH x Ei) in Hx. apply dead_keep; [auto|]. apply (c_cold _ _ HC x Hx Eg).
  Qed.
End Change.

(** nothing is changed but what is saved *)
Lemma core_saves s s' G : core s G -> y_st s' = y_st s -> descs s' = descs s ->
  (forall x, In x (aside s') -> In x (aside s) \/ In x (descs s)) -> core s' G.
Proof.
  intros [A B C D E F H] Es Ed Ha. assert (HL : forall n, lost s G n -> lost s' G n) by (intros n; unfold lost; rewrite Es, Ed; auto).
  assert (HD : forall x, dead s G x -> dead s' G x) by (intros x [X|X]; [left; exact X|right; apply HL, X]).
  split; unfold ids in *; rewrite ?Ed; auto.
  { intros x l X Y. apply HL. eapply E; eauto. }
  intros x Hx.
  apply Ha in Hx as [Hx|Hx].
  - destruct (H x Hx) as [X|(y & Y1 & Y2 & Y3 & Y4)]; [left; auto|]. right. exists y. rewrite Ed. repeat (split; [assumption|]). destruct Y4; auto.
  - destruct (G (ds_id x)) as [g|] eqn:Eg; [|left; auto]. right. exists x. rewrite Ed. split; [exact Hx|]. split; [congruence|]. split; [repeat split|auto].
Qed.

(** a stop: only what the file says is left *)
Definition stopped (s : sys) : sys := mkY (y_st s) (fun _ => None) [] (y_file s) (y_file s) None.
Definition ghost_stop (s : sys) (G : ghost) : ghost := fun id =>
  match find_desc id (y_file s), find_desc id (descs s) with
  | Some x, Some y =>
    if String.eqb (ds_scores x) (ds_scores y) then
      match G id with Some (b, l) => Some (b && String.eqb (ds_index x) (ds_index y), reload l) | None => None end
    else None
  | _, _ => None
  end.
Lemma stop_back s G x b l : core s G -> NoDup (map ds_id (y_file s)) -> In x (y_file s) -> ghost_stop s G (ds_id x) = Some (b, l) ->
  exists y b0 l0, In y (descs s) /\ same x y /\ G (ds_id x) = Some (b0, l0) /\ l = reload l0 /\ find_desc (ds_id x) (descs s) = Some y /\
    (ds_index x = ds_index y /\ b = b0 \/ ds_index x <> ds_index y /\ b = false /\ lost s G (ds_index x)).
Proof.
  intros HC Hf Hx E. unfold ghost_stop in E. rewrite (find_desc_of _ _ Hf Hx) in E.
  destruct (find_desc (ds_id x) (descs s)) as [y|] eqn:Ey; [|discriminate]. apply find_desc_In in Ey as Hy. destruct Hy as (Hy & Ei).
  destruct (String.eqb_spec (ds_scores x) (ds_scores y)) as [Es|]; [|discriminate].
  destruct (G (ds_id x)) as [(b0 & l0)|] eqn:Eg; [|discriminate]. injection E as <- <-.
  assert (Hl : lives G y (ds_scores y)) by (exists b0, l0; rewrite Ei; auto).
  destruct (c_tied _ _ HC x) as [[C|C]|(z & Hz & Hg & Hs & Hi)].
  - apply in_or_app. auto.
  - exfalso. rewrite Es in C. destruct (c_plain _ _ HC y _ Hy Hl) as (P & _). congruence.
  - exfalso. rewrite Es in C. destruct C as (_ & _ & C). apply (C y Hy Hl).
  - assert (Ez : z = y) by (eapply descs_uniq; eauto; destruct Hs; congruence). subst z.
    exists y, b0, l0. split; [exact Hy|]. split; [exact Hs|]. split; [reflexivity|]. split; [reflexivity|]. split; [reflexivity|].
    destruct (String.eqb_spec (ds_index x) (ds_index y)) as [E|E]; [left; split; [exact E|apply andb_true_r]|].
    right. split; [exact E|]. split; [apply andb_false_r|]. tauto.
Qed.
Lemma stop_lives s G x n : core s G -> NoDup (map ds_id (y_file s)) -> In x (y_file s) -> lives (ghost_stop s G) x n ->
  exists y, In y (descs s) /\ ds_id y = ds_id x /\ lives G y n.
Proof.
  intros HC Hf Hx (b & l & E & Hn). destruct (stop_back s G x b l HC Hf Hx E) as (y & b0 & l0 & Hy & (S1 & _ & _ & S4) & Eg & _ & _ & Hi).
  exists y. split; [exact Hy|]. split; [auto|]. exists b0, l0. rewrite <- S1. split; [exact Eg|].
  destruct Hn as [->|(-> & ->)]; [left; exact S4|]. destruct Hi as [(Hi & <-)|(_ & C & _)]; [right; auto|discriminate].
Qed.
Lemma core_stop s G : core s G -> NoDup (map ds_id (y_file s)) -> core (stopped s) (ghost_stop s G).
Proof.
  intros HC Hf. assert (HL : forall n, lost s G n -> lost (stopped s) (ghost_stop s G) n).
  { intros n (P & E & L). split; [exact P|]. split; [exact E|]. intros x Hx Hl. destruct (stop_lives s G x n HC Hf Hx Hl) as (y & Hy & _ & Hly). apply (L y Hy Hly). }
  assert (HD : forall x, dead s G x -> dead (stopped s) (ghost_stop s G) x) by (intros x [E|L]; [left; exact E|right; apply HL, L]).
  assert (Hcold : forall x, In x (y_file s) -> ghost_stop s G (ds_id x) = None -> dead (stopped s) (ghost_stop s G) x).
  { intros x Hx Eg. destruct (c_tied _ _ HC x) as [D|(y & Hy & Hg & Hs & Hi)]; [apply in_or_app; auto|apply HD, D|]. exfalso.
    unfold ghost_stop in Eg. destruct Hs as (S1 & S2 & S3 & S4). rewrite (find_desc_of _ _ Hf Hx), S1, (find_desc_of _ _ (c_ids _ _ HC) Hy), S4, String.eqb_refl in Eg.
    destruct (G (ds_id y)) as [(b & l)|]; [discriminate|contradiction]. }
  split; unfold ids, descs, aside, encoded, stopped; cbn [y_open y_cold y_file y_save map app].
  - exact Hf.
  - intros x n Hx Hl. destruct (stop_lives s G x n HC Hf Hx Hl) as (y & Hy & _ & Hly). apply (c_plain _ _ HC y n Hy Hly).
  - intros x y n Hx Hy Lx Ly. destruct (stop_lives s G x n HC Hf Hx Lx) as (x' & Hx' & Ex & Lx'). destruct (stop_lives s G y n HC Hf Hy Ly) as (y' & Hy' & Ey & Ly').
    rewrite <- Ex, <- Ey. apply (c_apart _ _ HC x' y' n); assumption.
  - exact Hcold.
  - intros x l Hx Eg. destruct (stop_back s G x _ l HC Hf Hx Eg) as (y & b0 & l0 & Hy & Hs & E0 & _ & _ & [(Hi & <-)|(_ & _ & Hi)]); apply HL; [|exact Hi].
    rewrite Hi. apply (c_bare _ _ HC y l0 Hy). destruct Hs as (<- & _). exact E0.
  - intros x l Hx Eg. destruct (stop_back s G x _ l HC Hf Hx Eg) as (y & b0 & l0 & Hy & Hs & E0 & _ & _ & [(Hi & <-)|(_ & C & _)]); [|discriminate].
    destruct Hs as (S1 & _ & _ & ->). rewrite Hi. apply (c_two _ _ HC y l0 Hy). rewrite <- S1. exact E0.
  - intros x Hx. rewrite app_nil_r in Hx. destruct (ghost_stop s G (ds_id x)) as [g|] eqn:Eg; [|left; apply Hcold; assumption].
    right. exists x. split; [exact Hx|]. split; [congruence|]. split; [repeat split|auto].
Qed.
