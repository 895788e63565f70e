(** Proofs about the master list file. *)
From Coq Require Import Strings.Byte Strings.String.
From Verif.Lib Require Import Prelude ListLemmas.
From Verif.Model Require Import Element Msgp Codec Manager.
From Verif.Spec Require Import CodecSpec ManagerSpec.
From Verif.Proof Require Import MsgpP CodecP.
Open Scope N_scope.

Definition put_lists (m ls : list wlist) : list wlist := fold_left put_list ls m.

Lemma w_list_head l : exists r, w_list l = Nb 0x98 :: r.
Proof. eexists. reflexivity. Qed.

Lemma stream_reads ls : forall fuel m rest, Forall list_fits ls -> (length (flat_map w_list ls) < fuel)%nat ->
  load_stream fuel m (flat_map w_list ls ++ w_bool true ++ rest) = (None, put_lists m (map with_map ls)).
Proof.
  induction ls as [|l ls IH]; intros fuel m rest H Hf; (destruct fuel as [|fuel]; [lia|]).
  - reflexivity.
  - apply Forall_cons_iff in H as (Hl & H). cbn [flat_map]. rewrite <- app_assoc.
    destruct (w_list_head l) as (r & E). cbn [load_stream]. rewrite E at 1. cbn [app].
    replace (is_bool (Nb 152)) with false by reflexivity. rewrite (list_reads l Hl).
    cbn [map put_lists fold_left]. apply IH; [exact H|]. cbn [flat_map] in Hf. rewrite app_length, E in Hf. cbn in Hf. lia.
Qed.

Lemma stream_cut ls : forall fuel m b d, Forall list_fits ls -> d <> [] -> flat_map w_list ls ++ w_bool true = b ++ d ->
  exists k, load_stream fuel m b = (Some EDecode, put_lists m (map with_map (firstn k ls))).
Proof.
  induction ls as [|l ls IH]; intros fuel m b d H Hd E.
  - exists O. cbn [firstn map put_lists fold_left]. destruct b as [|c b]; [destruct fuel; reflexivity|].
    exfalso. cbn in E. injection E as _ E. destruct b; [|discriminate]. cbn in E. symmetry in E. contradiction.
  - apply Forall_cons_iff in H as (Hl & H). cbn [flat_map] in E. rewrite <- app_assoc in E.
    destruct fuel as [|fuel]; [exists O; reflexivity|].
    destruct b as [|c b']; [exists O; reflexivity|]. set (b := c :: b') in *.
    assert (Hc : is_bool c = false).
    { destruct (w_list_head l) as (r & E'). rewrite E' in E. cbn [app] in E. unfold b in E. injection E as <- _. reflexivity. }
    assert (L : load_stream (S fuel) m b = match r_list b with None => (Some EDecode, m) | Some (l, r) => load_stream fuel (put_list m l) r end).
    { unfold b. cbn [load_stream]. rewrite Hc. reflexivity. }
    rewrite L. apply app_eq_app in E as (x & [(E1 & E2)|(E1 & E2)]).
    + destruct x as [|y x].
      * rewrite app_nil_r in E1. rewrite <- E1, <- (app_nil_r (w_list l)), (list_reads l Hl).
        destruct (IH fuel (put_list m (with_map l)) [] d H Hd) as (k & Hk); [exact (eq_sym E2)|].
        exists (S k). exact Hk.
      * rewrite (truncated r_list _ _ b (y :: x) mono_list (list_reads l Hl) E1); [|discriminate]. exists O. reflexivity.
    + rewrite E1, (list_reads l Hl). destruct (IH fuel (put_list m (with_map l)) x d H Hd E2) as (k & Hk).
      exists (S k). exact Hk.
Qed.

(** the fuel is enough: more makes no difference *)
Definition shrinks {A} (p : reader A) : Prop := forall b a r, p b = Some (a, r) -> (length r <= length b)%nat.
Lemma shrinks_bind {A B} (p : reader A) (f : A -> reader B) : shrinks p -> (forall a, shrinks (f a)) -> shrinks (bind p f).
Proof. intros Hp Hf b x r E. unfold bind in E. destruct (p b) as [[a r']|] eqn:Ep; [|discriminate]. apply Hf in E. apply Hp in Ep. lia. Qed.
Lemma shrinks_ret {A} (a : A) : shrinks (ret a).
Proof. intros b x r E. injection E as <- <-. lia. Qed.
Lemma shrinks_fail {A} : shrinks (@fail A).
Proof. intros b x r E. discriminate E. Qed.
Lemma shrinks_next : shrinks next.
Proof. intros [|c b] a r E; [discriminate|]. injection E as <- <-. cbn. lia. Qed.
Lemma shrinks_take n : shrinks (take n).
Proof. intros b a r E. unfold take in E. destruct (_ <? _)%nat; [discriminate|]. injection E as <- <-. rewrite skipn_length. lia. Qed.
Lemma shrinks_check {A} c (p : reader A) : shrinks p -> shrinks (check c p).
Proof. intros H. destruct c; [exact H|apply shrinks_fail]. Qed.
Lemma shrinks_times {A} n (p : reader A) : shrinks p -> shrinks (times n p).
Proof. intros H. induction n as [|n IH]; cbn [times]; [apply shrinks_ret|]. repeat (apply shrinks_bind; [assumption|intros ?]). apply shrinks_ret. Qed.
Ltac shrink_match := match goal with |- shrinks (match ?x with _ => _ end) => destruct x end.
Ltac shrink := repeat first [apply shrinks_ret | apply shrinks_fail | apply shrinks_take | apply shrinks_next
  | apply shrinks_check | (apply shrinks_bind; [|intros ?]) | shrink_match].
Lemma shrinks_str : shrinks r_str. Proof. unfold r_str, get. shrink. Qed.
Lemma shrinks_int : shrinks r_int. Proof. unfold r_int, r_integer, get. shrink. Qed.
Lemma shrinks_bool : shrinks r_bool. Proof. unfold r_bool. shrink. Qed.
Lemma shrinks_map : shrinks r_map. Proof. unfold r_map, get. shrink. Qed.
Lemma list_shrinks b l r : r_list b = Some (l, r) -> (length r < length b)%nat.
Proof.
  unfold r_list, r_arr, bind at 1 2. destruct b as [|c b]; [discriminate|]. cbn [next length].
  set (q := if _ && _ then _ else _). destruct (q b) as [[n b1]|] eqn:E; [|discriminate]. intros H.
  assert (shrinks q) by (unfold q, get; shrink). apply H0 in E.
  match type of H with ?p b1 = _ => assert (G : shrinks p) end.
  { apply shrinks_check. repeat (apply shrinks_bind; [first [apply shrinks_str|apply shrinks_int|apply shrinks_bool|apply shrinks_map|apply shrinks_times; unfold r_pair; repeat (apply shrinks_bind; [apply shrinks_str|intros ?]); apply shrinks_ret]|intros ?]). apply shrinks_ret. }
  apply G in H. lia.
Qed.
Lemma stream_fuel f1 : forall f2 m b, (length b < f1)%nat -> (length b < f2)%nat -> load_stream f1 m b = load_stream f2 m b.
Proof.
  induction f1 as [|f1 IH]; intros [|f2] m b H1 H2; try lia. cbn [load_stream]. destruct b as [|c b]; [reflexivity|].
  destruct (is_bool c); [reflexivity|]. destruct (r_list (c :: b)) as [[l r]|] eqn:E; [|reflexivity].
  apply list_shrinks in E. apply IH; lia.
Qed.

(** ** the collection read *)
Lemma put_new m l : ~ In (wl_id l) (map wl_id m) -> put_list m l = l :: m.
Proof.
  intros H. unfold put_list. f_equal. induction m as [|x m IH]; [reflexivity|]. cbn [filter].
  destruct (String.eqb (wl_id l) (wl_id x)) eqn:E.
  - apply String.eqb_eq in E. exfalso. apply H. left. symmetry. exact E.
  - cbn. f_equal. apply IH. intros H'. apply H. right. exact H'.
Qed.
Lemma put_lists_perm ls : forall m, NoDup (map wl_id (ls ++ m)) -> Permutation (ls ++ m) (put_lists m ls).
Proof.
  induction ls as [|l ls IH]; intros m H; [reflexivity|]. cbn [put_lists fold_left]. cbn [app map] in H.
  apply NoDup_cons_iff in H as (Hl & H). rewrite put_new.
  - etransitivity; [|apply IH].
    + apply Permutation_middle.
    + eapply Permutation_NoDup; [apply Permutation_map, Permutation_middle|]. cbn [map]. apply NoDup_cons; assumption.
  - intros H'. apply Hl. rewrite map_app. apply in_or_app. right. exact H'.
Qed.
Lemma with_map_ids ls : map wl_id (map with_map ls) = map wl_id ls.
Proof. rewrite map_map. reflexivity. Qed.
Lemma put_list_nodup m l : NoDup (map wl_id m) -> NoDup (map wl_id (put_list m l)).
Proof.
  intros H. unfold put_list. cbn [map]. apply NoDup_cons.
  - intros H'. apply in_map_iff in H' as (x & E & Hx). apply filter_In in Hx as (_ & Hx). rewrite <- E, String.eqb_refl in Hx. discriminate.
  - induction m as [|x m IH]; [exact H|]. cbn [map] in H. apply NoDup_cons_iff in H as (Hx & H). cbn [filter].
    destruct (negb _); [|apply IH, H]. cbn [map]. apply NoDup_cons; [|apply IH, H].
    intros H'. apply Hx. apply in_map_iff in H' as (y & E & Hy). apply filter_In in Hy as (Hy & _). apply in_map_iff. exists y. split; assumption.
Qed.
Lemma stream_nodup fuel : forall m b e m', NoDup (map wl_id m) -> load_stream fuel m b = (e, m') -> NoDup (map wl_id m').
Proof.
  induction fuel as [|fuel IH]; intros m b e m' H E; cbn [load_stream] in E; [injection E as <- <-; exact H|].
  destruct b as [|c b]; [injection E as <- <-; exact H|]. destruct (is_bool c); [injection E as <- <-; exact H|].
  destruct (r_list (c :: b)) as [[l r]|]; [|injection E as <- <-; exact H]. apply (IH _ _ _ _ (put_list_nodup m l H) E).
Qed.

(** ** the file *)
Lemma open_zstd zdec fdec b : open_file zdec fdec (Nb comp_zstd) b = Some (zdec b).
Proof. reflexivity. Qed.
Lemma payload_len ls : (length (flat_map w_list ls) < S (length (flat_map w_list ls ++ w_bool true)))%nat.
Proof. rewrite app_length. lia. Qed.

Lemma load_saved enc zdec fdec ls old : compressor enc zdec -> Forall list_fits ls ->
  load zdec fdec old (save enc ls) = (None, put_lists [] (map with_map ls)).
Proof.
  intros (C & _) H. unfold load, save. rewrite open_zstd, C, version_reads by reflexivity.
  replace (list_version =? list_version) with true by reflexivity.
  pose proof (stream_reads ls (S (length (flat_map w_list ls ++ w_bool true))) [] [] H (payload_len ls)) as R.
  rewrite app_nil_r in R. exact R.
Qed.
Lemma saved_same ls : NoDup (map wl_id ls) -> same_lists ls (put_lists [] (map with_map ls)).
Proof.
  intros H. unfold same_lists. rewrite <- (app_nil_r (map with_map ls)) at 1. apply put_lists_perm. rewrite app_nil_r, with_map_ids. exact H.
Qed.
Lemma round_trip enc zdec fdec ls old : compressor enc zdec -> collection ls ->
  exists m, load zdec fdec old (save enc ls) = (None, m) /\ same_lists ls m.
Proof. intros C (H & N). eexists. split; [apply load_saved; assumption|apply saved_same, N]. Qed.

Lemma load_flate zdec fdec ls old c b : collection ls -> N.land (bN c) comp_base <> comp_base ->
  fdec (c :: b) = w_version list_version ++ flat_map w_list ls ++ w_bool true ->
  exists m, load zdec fdec old (c :: b) = (None, m) /\ same_lists ls m.
Proof.
  intros (H & N) C E. exists (put_lists [] (map with_map ls)). split; [|apply saved_same, N].
  unfold load, open_file. destruct (N.land (bN c) comp_base =? comp_base) eqn:B; [apply N.eqb_eq in B; contradiction|].
  rewrite E, version_reads by reflexivity. replace (list_version =? list_version) with true by reflexivity.
  pose proof (stream_reads ls (S (length (flat_map w_list ls ++ w_bool true))) [] [] H (payload_len ls)) as R.
  rewrite app_nil_r in R. exact R.
Qed.
Lemma load_each_once zdec fdec old b e m : NoDup (map wl_id old) -> load zdec fdec old b = (e, m) -> NoDup (map wl_id m).
Proof.
  intros H E. unfold load in E. destruct b as [|c b]; [injection E as <- <-; exact H|].
  destruct (open_file zdec fdec c b) as [s|]; [|injection E as <- <-; exact H]. destruct (r_version s) as [v r].
  destruct (v =? list_version); [|injection E as <- <-; exact H]. apply (stream_nodup _ [] _ _ _ (NoDup_nil _) E).
Qed.

(** a list file cut short *)
Lemma version_cut b d p : w_version list_version ++ p = b ++ d -> b = [] \/ exists b', b = w_version list_version ++ b' /\ p = b' ++ d.
Proof.
  destruct b as [|c b]; [left; reflexivity|]. intros E. right. cbn in E. injection E as <- E. exists b. split; [reflexivity|exact E].
Qed.
Lemma load_cut enc zdec fdec ls old b c : compressor enc zdec -> Forall list_fits ls -> save enc ls = b ++ c -> c <> [] ->
  load zdec fdec old b = load zdec fdec old (save enc ls) \/
  exists e m, load zdec fdec old b = (Some e, m) /\ (m = old \/ exists k, m = put_lists [] (map with_map (firstn k ls))).
Proof.
  intros C H E Hc. pose proof (load_saved enc zdec fdec ls old C H) as LS. destruct C as (_ & C). unfold save in E.
  destruct b as [|x b]; [right; exists EEmpty, old; split; [reflexivity|left; reflexivity]|].
  cbn [app] in E. injection E as <- E. change (Nb list_version :: flat_map w_list ls ++ w_bool true) with (w_version list_version ++ flat_map w_list ls ++ w_bool true) in E. destruct (C _ _ _ E) as (d & Ed).
  set (p := flat_map w_list ls ++ w_bool true) in *.
  destruct d as [|y d].
  - left. rewrite LS. rewrite (app_nil_r (zdec b)) in Ed. unfold load. rewrite open_zstd, <- Ed, version_reads by reflexivity.
    replace (list_version =? list_version) with true by reflexivity.
    pose proof (stream_reads ls (S (length p)) [] [] H (payload_len ls)) as R. rewrite app_nil_r in R. exact R.
  - right. destruct (version_cut _ _ _ Ed) as [E0|(b' & Eb & Ep)].
    + exists EVersion, old. split; [|left; reflexivity]. unfold load. rewrite open_zstd, E0. reflexivity.
    + destruct (stream_cut ls (S (length b')) [] b' (y :: d) H ltac:(discriminate) Ep) as (k & Hk).
      exists EDecode. eexists. split; [|right; exists k; reflexivity].
      unfold load. rewrite open_zstd, Eb, version_reads by reflexivity. exact Hk.
Qed.
Lemma first_lists ls k : NoDup (map wl_id ls) -> same_lists (firstn k ls) (put_lists [] (map with_map (firstn k ls))).
Proof.
  intros H. apply saved_same. rewrite <- firstn_map. rewrite <- (firstn_skipn k (map wl_id ls)) in H. apply NoDup_app_iff in H as (H & _). exact H.
Qed.
Lemma cut_short enc zdec fdec ls old b c : compressor enc zdec -> collection ls -> save enc ls = b ++ c -> c <> [] ->
  (exists m, load zdec fdec old b = (None, m) /\ same_lists ls m) \/
  (exists e m, load zdec fdec old b = (Some e, m) /\ (m = old \/ exists k, same_lists (firstn k ls) m)).
Proof.
  intros C (H & N) E Hc. destruct (load_cut enc zdec fdec ls old b c C H E Hc) as [L|(e & m & L & Hm)].
  - left. rewrite L, (load_saved enc zdec fdec ls old C H). eexists. split; [reflexivity|apply saved_same, N].
  - right. exists e, m. split; [exact L|]. destruct Hm as [->|(k & ->)]; [left; reflexivity|]. right. exists k. apply first_lists, N.
Qed.
(** what an error leaves: the old lists or lists of the file *)
Lemma plain_cut zdec fdec ls old b c : Forall list_fits ls -> Nb comp_none :: w_version list_version ++ flat_map w_list ls ++ w_bool true = b ++ c -> c <> [] ->
  exists e m, load zdec fdec old b = (Some e, m).
Proof.
  intros H E Hc. destruct b as [|x b]; [do 2 eexists; reflexivity|]. cbn [app] in E. injection E as <- E.
  change (load zdec fdec old (Nb comp_none :: b)) with (let '(v, s) := r_version b in if v =? list_version then load_stream (S (length s)) [] s else (Some EVersion, old)).
  destruct (version_cut _ _ _ E) as [->|(b' & -> & Ep)]; [do 2 eexists; reflexivity|]. rewrite version_reads by reflexivity.
  destruct (stream_cut ls (S (length b')) [] b' c H Hc Ep) as (k & Hk). do 2 eexists. exact Hk.
Qed.

(** ** start-up *)
Lemma load_old zdec fdec old old' b m : load zdec fdec old b = (None, m) -> load zdec fdec old' b = (None, m).
Proof.
  unfold load. destruct b as [|c b]; [discriminate|]. destruct (open_file zdec fdec c b); [|discriminate].
  destruct (r_version w) as [v r]. destruct (v =? list_version); [auto|discriminate].
Qed.
Lemma readable_of zdec fdec old b m : load zdec fdec old b = (None, m) -> readable zdec fdec (Got b) m.
Proof. intros H. exists b. split; [reflexivity|]. intros old'. apply (load_old _ _ _ _ _ _ H). Qed.
Lemma load_lists_spec zdec fdec old p bk m :
  load_lists zdec fdec old p bk = (None, m) <->
  readable zdec fdec p m \/ ((forall m', ~ readable zdec fdec p m') /\ exists g, bk = Some g /\ readable zdec fdec g m).
Proof.
  assert (B : forall g old', load_lists zdec fdec old Missing (Some g) = (None, m) -> match g with Got b => load zdec fdec old' b | Missing => (Some EMissing, old') | Failed => (Some ERead, old') end = (None, m)).
  { intros [b| |] old' E; cbn in E; try discriminate. apply (load_old _ _ _ _ _ _ E). }
  assert (NG : forall m', ~ readable zdec fdec Missing m') by (intros m' (b & E & _); discriminate E).
  assert (NF : forall m', ~ readable zdec fdec Failed m') by (intros m' (b & E & _); discriminate E).
  split.
  - intros E. unfold load_lists in E. destruct p as [b| |].
    + destruct (load zdec fdec old b) as [[e|] m1] eqn:L.
      * right. split.
        { intros m' (b' & Eb & R). injection Eb as <-. rewrite R in L. discriminate. }
        destruct bk as [[b2| |]|]; try discriminate. exists (Got b2). split; [reflexivity|]. apply (readable_of _ _ m1 _ _ E).
      * left. destruct bk; injection E as <-; apply (readable_of _ _ old _ _ L).
    + right. split; [exact NG|]. destruct bk as [[b2| |]|]; try discriminate. exists (Got b2). split; [reflexivity|]. apply (readable_of _ _ old _ _ E).
    + right. split; [exact NF|]. destruct bk as [[b2| |]|]; try discriminate. exists (Got b2). split; [reflexivity|]. apply (readable_of _ _ old _ _ E).
  - intros [(b & -> & R)|(N & g & -> & (b2 & -> & R))].
    + unfold load_lists. rewrite R. reflexivity.
    + unfold load_lists. destruct p as [b| |]; [|apply R|apply R].
      destruct (load zdec fdec old b) as [[e|] m1] eqn:L; [apply R|]. exfalso. apply (N m1). apply (readable_of _ _ old _ _ L).
Qed.

Lemma intact_readable enc zdec fdec g : compressor enc zdec -> intact enc g -> exists ls m, file_of enc ls g /\ readable zdec fdec g m /\ same_lists ls m.
Proof.
  intros C (ls & H & ->). destruct (round_trip enc zdec fdec ls [] C H) as (m & L & S). exists ls, m. split; [reflexivity|].
  split; [apply (readable_of _ _ [] _ _ L)|exact S].
Qed.

Lemma start_spec zdec fdec p bk m : start_server zdec fdec p bk = Running m ->
  readable zdec fdec p m \/ (exists g, bk = Some g /\ readable zdec fdec g m) \/
  (m = [] /\ ((bk = None /\ p = Missing) \/ (bk = Some Missing /\ forall m', ~ readable zdec fdec p m'))).
Proof.
  unfold start_server. destruct (load_lists zdec fdec [] p bk) as [[e|] m1] eqn:L.
  - intros E. right. right. assert (He : e = EMissing /\ m = []) by (destruct e; try discriminate; injection E as <-; split; reflexivity).
    destruct He as (-> & ->). split; [reflexivity|]. unfold load_lists in L.
    assert (NL : forall old b e m', load zdec fdec old b = (Some e, m') -> e <> EMissing).
    { clear. intros old b e m' E ->. unfold load in E. destruct b as [|c b]; [discriminate|]. destruct (open_file zdec fdec c b) as [s|]; [|discriminate].
      destruct (r_version s) as [v r]. destruct (v =? list_version); [|discriminate].
      revert E. generalize (S (length r)), (@nil wlist). intros n. revert r. induction n as [|n IH]; intros r l E; cbn [load_stream] in E; [discriminate|].
      destruct r as [|x r]; [discriminate|]. destruct (is_bool x); [discriminate|]. destruct (r_list (x :: r)) as [[y z]|]; [|discriminate]. apply (IH _ _ E). }
    destruct p as [b| |].
    + destruct (load zdec fdec [] b) as [[e|] m2] eqn:L2.
      * destruct bk as [[b2| |]|].
        -- exfalso. apply (NL _ _ _ _ L). reflexivity.
        -- right. split; [reflexivity|]. intros m' (b' & Eb & R). injection Eb as <-. rewrite R in L2. discriminate.
        -- discriminate.
        -- exfalso. injection L as -> <-. apply (NL _ _ _ _ L2). reflexivity.
      * destruct bk; discriminate.
    + destruct bk as [[b2| |]|]; try discriminate.
      * exfalso. apply (NL _ _ _ _ L). reflexivity.
      * right. split; [reflexivity|]. intros m' (b' & Eb & _). discriminate.
      * left. split; reflexivity.
    + destruct bk as [[b2| |]|]; try discriminate.
      * exfalso. apply (NL _ _ _ _ L). reflexivity.
      * right. split; [reflexivity|]. intros m' (b' & Eb & _). discriminate.
  - intros E. injection E as <-. apply load_lists_spec in L. destruct L as [R|(_ & R)]; [left; exact R|right; left; exact R].
Qed.

(** ** saving *)
Lemma one_save enc ls b o1 o2 f f' : collection ls -> intact enc (f_primary f) -> intact enc (f_backup f) ->
  o1 <> FailBroken \/ o2 <> FailBroken -> In f' (save_states enc ls b o1 o2 f) ->
  intact enc (f_primary f') \/ intact enc (f_backup f').
Proof.
  intros H Hp Hb Ho Hin. unfold save_states in Hin.
  assert (I : intact enc (Got (save enc ls))) by (exists ls; split; [exact H|reflexivity]).
  assert (SB : forall o old, o <> FailBroken -> intact enc old -> intact enc (set_blob o old (save enc ls))) by (intros [| | |] old Hne HI; try exact I; try exact HI; contradiction).
  destruct b; cbn [In] in Hin.
  - destruct Hin as [<-|[<-|[<-|[]]]]; cbn [f_primary f_backup]; auto. destruct Ho as [Ho|Ho]; [right|left]; apply SB; assumption.
  - destruct Hin as [<-|[<-|[]]]; cbn [f_primary f_backup]; auto.
Qed.
Lemma atomic_saves enc f f' : saves enc (fun o => o <> FailBroken) f f' -> intact enc (f_primary f) -> intact enc (f_primary f').
Proof.
  induction 1 as [|f ls b o1 o2 f1 f2 H H1 H2 Hin _ IH]; [auto|]. intros Hp. apply IH. unfold save_states in Hin.
  assert (I : intact enc (Got (save enc ls))) by (exists ls; split; [exact H|reflexivity]).
  assert (SB : intact enc (set_blob o2 (f_primary f) (save enc ls))) by (destruct o2; try exact I; try exact Hp; contradiction).
  destruct b; cbn [In] in Hin.
  - destruct Hin as [<-|[<-|[<-|[]]]]; assumption.
  - destruct Hin as [<-|[<-|[]]]; assumption.
Qed.

(** ** the interval saver *)
Lemma counter_spec every n : (0 < every)%Z -> (0 < n)%nat ->
  counter every n = ((Z.of_nat n - 1) mod every + 1)%Z.
Proof.
  intros He. induction n as [|n IH]; [lia|]. intros _. destruct n as [|n].
  - cbn [counter]. unfold tick_backup, tick_last. replace (every <=? 0)%Z with false by lia.
    rewrite Bool.andb_false_r. change (Z.of_nat 1 - 1)%Z with 0%Z. rewrite Z.mod_0_l; lia.
  - remember (S n) as k eqn:Ek. cbn [counter]. rewrite IH by lia. unfold tick_backup, tick_last.
    replace (0 <? every)%Z with true by lia. cbn [andb].
    replace (Z.of_nat (S k) - 1)%Z with (Z.of_nat k - 1 + 1)%Z by lia. generalize (Z.of_nat k - 1)%Z. intros z.
    pose proof (Z.mod_pos_bound z every He) as B. destruct (every <=? z mod every + 1)%Z eqn:E.
    + assert ((z + 1) mod every = 0)%Z; [|lia]. rewrite <- Z.add_mod_idemp_l by lia. replace (z mod every + 1)%Z with every by lia. apply Z.mod_same. lia.
    + assert ((z + 1) mod every = z mod every + 1)%Z; [|lia]. rewrite <- Z.add_mod_idemp_l by lia. apply Z.mod_small. lia.
Qed.
Lemma backup_ticks every n : (0 < every)%Z ->
  tick_backup true every (counter every n) = true <-> (0 < n)%nat /\ (Z.of_nat n mod every = 0)%Z.
Proof.
  intros He. destruct n as [|n].
  - cbn. split; [|intros (H & _); lia]. unfold tick_backup. replace (every <=? 0)%Z with false by lia. rewrite Bool.andb_false_r. discriminate.
  - rewrite counter_spec by lia. unfold tick_backup. replace (0 <? every)%Z with true by lia. cbn [andb].
    replace (Z.of_nat (S n) - 1)%Z with (Z.of_nat n) by lia. replace (Z.of_nat (S n)) with (Z.of_nat n + 1)%Z by lia. generalize (Z.of_nat n). intros z.
    pose proof (Z.mod_pos_bound z every He) as B. rewrite <- (Z.add_mod_idemp_l z) by lia.
    split.
    + intros E. split; [lia|]. replace (z mod every + 1)%Z with every by lia. apply Z.mod_same. lia.
    + intros (_ & E). destruct (Z.eq_dec (z mod every + 1) every) as [Q|Q]; [lia|]. rewrite Z.mod_small in E by lia. lia.
Qed.
