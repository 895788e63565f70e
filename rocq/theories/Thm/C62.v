(** C62: what a server that saves its list file and stops at any time keeps. *)
From Coq Require Import Strings.String Strings.Ascii.
From Verif.Lib Require Import Prelude ListAux Bytes.
From Verif.Model Require Import Element Elements Segment List Keys Storage ListFile.
From Verif.Spec Require Import RankSpec QuerySpec HistorySpec AnswerSpec StorageSpec ListFileSpec.
From Verif.Proof Require Import ListThm HistoryP ListFileThm.
From Verif.Thm Require Import Sample SampleStore.
Open Scope N_scope.

(** A list that is not lost is in memory and answers from its whole history, or every call that
    holds the update lock loads it and then it does; [Exhausted]: the draws of new segment IDs ran out. *)
Theorem C62_current : forall cfg s sp id g z m, serves cfg s sp -> sp id = Some (g, z, m) ->
  readable s id g z m \/
  forall n0 ni now sc, event_ok s sp (EOpen id true n0 ni now sc) ->
    (exists s', next cfg s (EOpen id true n0 ni now sc) = Some s' /\ serves cfg s' sp /\ readable s' id g z m) \/
    exists l, reachable g z l m /\ step l (OReindex ni now sc) = Exhausted.
Proof. exact c62_current. Qed.
Print Assumptions C62_current.

(** A call without the update lock loads the list, or leaves everything as it was and then the
    metadata of the index that the list's descriptor names is not there. *)
Theorem C62_read : forall cfg s sp id g z m n0 ni now sc, serves cfg s sp -> sp id = Some (g, z, m) -> ~ In id (map fst (y_open s)) ->
  exists s', next cfg s (EOpen id false n0 ni now sc) = Some s' /\ serves cfg s' sp /\
    (readable s' id g z m \/ s' = s /\ exists x, In x (y_cold s) /\ ds_id x = id /\ y_st s (lit (ds_index x)) = None).
Proof. exact c62_read. Qed.
Print Assumptions C62_read.

(** A list that is lost is never in memory, and no call loads anything in its place. *)
Theorem C62_gone : forall cfg s sp id, serves cfg s sp -> sp id = None ->
  ~ In id (map fst (y_open s)) /\
  forall x lock n0 ni now sc, In x (y_cold s) -> ds_id x = id ->
    (open_list cfg (y_st s) x = Failed \/ open_list cfg (y_st s) x = Nil) /\ next cfg s (EOpen id lock n0 ni now sc) = Some s.
Proof. exact c62_gone. Qed.
Print Assumptions C62_gone.

(** The process can stop and start at any point.  A list that is in the file keeps all its
    elements, also those it got after the save, if the file has the name of its present scores,
    and is lost if not. *)
Theorem C62_restart : forall cfg cfg' s sp id x y, serves cfg s sp -> In x (y_file s) -> In y (descs s) -> ds_id x = id -> ds_id y = id ->
  exists s' sp', next cfg s EStop = Some s' /\ serves cfg' s' sp' /\
    sp' id = if String.eqb (ds_scores x) (ds_scores y) then sp id else None.
Proof. exact c62_restart. Qed.
Print Assumptions C62_restart.
Theorem C62_unknown : forall cfg cfg' s sp id, serves cfg s sp -> ~ In id (map ds_id (y_file s)) ->
  exists s' sp', next cfg s EStop = Some s' /\ serves cfg' s' sp' /\ ~ In id (ids s') /\ sp' id = None.
Proof. exact c62_unknown. Qed.
Print Assumptions C62_unknown.

(** A save that ends well, with calls going on all the time, writes every list that was there
    throughout, none twice, and of each the descriptor that it had at some moment of the save, or
    one without names. *)
Theorem C62_save : forall cfg h s sp s', saving cfg h s sp -> next cfg s EEnd = Some s' ->
  (forall id, (forall t, In t h -> In id (ids t)) -> In id (map ds_id (y_file s'))) /\
  NoDup (map ds_id (y_file s')) /\
  (forall x, In x (y_file s') -> exists t, In t h /\ In (ds_id x) (ids t) /\ (In x (descs t) \/ ds_scores x = ""%string /\ ds_index x = ""%string)).
Proof. exact c62_save. Qed.
Print Assumptions C62_save.

(** If from the beginning of a save that ends well until the stop no list is made, populated,
    repaired or removed, nothing is lost: whatever updates, reindexing, loading, releasing and
    failing saves there are in between. *)
Theorem C62_orderly : forall cfg cfg' s0 sp0 s1 s2 sp2 s3 s4 sp4, serves cfg s0 sp0 -> next cfg s0 EBegin = Some s1 -> steadily cfg s1 sp0 s2 sp2 ->
  next cfg s2 EEnd = Some s3 -> steadily cfg s3 sp2 s4 sp4 ->
  exists s5 sp5, next cfg s4 EStop = Some s5 /\ serves cfg' s5 sp5 /\ forall id, sp5 id = sp4 id.
Proof. exact c62_orderly. Qed.
Print Assumptions C62_orderly.

(** ** An execution *)
Definition then_ (cfg : bool) (s : sys) (e : event) : sys := match next cfg s e with Some s' => s' | None => s end.
Definition can (cfg : bool) (s : sys) (e : event) : bool := match next cfg s e with Some _ => true | None => false end.
Lemma then_eq cfg s e : can cfg s e = true -> next cfg s e = Some (then_ cfg s e).
Proof. unfold can, then_. destruct (next cfg s e); [reflexivity|discriminate]. Qed.
Lemma call_eq cfg s nid a seen w : act_on cfg (lists_of s) a = Some w ->
  next cfg s (ECall nid a seen) = Some (mkY (w_st w) (w_c w) (combine (ids_after s nid a) (w_ls w)) (y_cold s) (y_file s) (save_after s a seen)).
Proof. intros E. rewrite (sys_eta s) at 1. cbn [next]. rewrite <- sys_eta, E. reflexivity. Qed.
Definition called (s : sys) (nid : string) (a : act) (seen : bool) (w : world) : sys :=
  mkY (w_st w) (w_c w) (combine (ids_after s nid a) (w_ls w)) (y_cold s) (y_file s) (save_after s a seen).
Lemma called_lists s nid a seen w : length (ids_after s nid a) = length (w_ls w) -> lists_of (called s nid a seen w) = w.
Proof.
  intros E. unfold lists_of, called. cbn [y_st y_c y_open]. assert (H : forall (l : list string) (d : list loaded), length l = length d -> map snd (combine l d) = d).
  { induction l as [|x l IH]; intros [|y d] L; try discriminate; [reflexivity|]. cbn. f_equal. apply IH. injection L as L. exact L. }
  rewrite H by exact E. destruct w; reflexivity.
Qed.

Definition y0 : sys := mkY (w_st w0) (w_c w0) [] [] [] None.
Definition y1 := called y0 "a" new1 false w1.
Definition y2 := called y1 "b" new2 false w2.
Lemma ly0 : lists_of y0 = w0. Proof. reflexivity. Qed.
Lemma ly1 : lists_of y1 = w1. Proof. apply called_lists. vm_compute. reflexivity. Qed.
Lemma ly2 : lists_of y2 = w2. Proof. apply called_lists. vm_compute. reflexivity. Qed.
Ltac new_names := repeat (constructor; [split; [plain_name|split; [vm_compute; intuition discriminate|intros ?id; vm_compute; reflexivity]]|]); try constructor.
Definition sp1 := call_spec y0 "a" new1 (fun _ => None).
Definition sp2 := call_spec y1 "b" new2 sp1.
Lemma serves1 : serves true y1 sp1.
Proof.
  apply (V_next true true y0 (fun _ => None) (ECall "a" new1 false) y1 (V_start true _ _)); [|apply call_eq; rewrite ly0; apply go_eq; vm_compute; reflexivity|auto].
  exists []. split; [reflexivity|]. split; [exact new1_ok|]. split; [new_names|]. split; [intros _ []|]. constructor; [exact fit0|constructor].
Qed.
Lemma serves2 : serves true y2 sp2.
Proof.
  apply (V_next true true y1 sp1 (ECall "b" new2 false) y2 serves1); [|apply call_eq; rewrite ly1; apply go_eq; vm_compute; reflexivity|auto].
  exists [(2%nat, 4%nat, m0)]. split; [reflexivity|]. split; [rewrite ly1; exact new2_ok|]. split; [new_names|]. split; [intros _; vm_compute; intuition discriminate|].
  constructor; [exact fit0|]. constructor; [exact fitB|constructor].
Qed.
(** a save of both lists, with an update of the first after it was visited, and then an eviction *)
Definition da : desc := mkD "a" 2 4 "S" "I".
Definition db : desc := mkD "b" 2 4 "T" "J".
Definition with_save (s : sys) (sv : option (list string * list desc)) : sys := mkY (y_st s) (y_c s) (y_open s) (y_cold s) (y_file s) sv.
Definition with_file (s : sys) (f : list desc) : sys := mkY (y_st s) (y_c s) (y_open s) (y_cold s) f None.
Lemma begin_eq cfg s : y_save s = None -> next cfg s EBegin = Some (with_save s (Some (ids s, []))).
Proof. intros E. rewrite (sys_eta s) at 1. cbn [next]. rewrite <- sys_eta, E. reflexivity. Qed.
Lemma visit_eq cfg s id x : find_desc id (descs s) = Some x -> next cfg s (EVisit id) = Some (with_save s (visit x (y_save s))).
Proof. intros E. rewrite (sys_eta s) at 1. cbn [next]. rewrite <- sys_eta, E. reflexivity. Qed.
Lemma end_eq cfg s todo buf : y_save s = Some (todo, buf) -> forallb (fun id => has id (map ds_id buf)) todo = true -> next cfg s EEnd = Some (with_file s buf).
Proof. intros E F. rewrite (sys_eta s) at 1. cbn [next]. rewrite E, F. reflexivity. Qed.
Lemma stop_eq cfg s : next cfg s EStop = Some (mkY (y_st s) (fun _ => None) [] (y_file s) (y_file s) None).
Proof. destruct s; reflexivity. Qed.
Lemma stop_ids cfg s s' : next cfg s EStop = Some s' -> ids s' = map ds_id (y_file s) /\ y_open s' = [].
Proof. rewrite stop_eq. intros [= <-]. split; reflexivity. Qed.

Lemma lists_save s sv : lists_of (with_save s sv) = lists_of s. Proof. reflexivity. Qed.
Lemma lists_file s f : lists_of (with_file s f) = lists_of s. Proof. reflexivity. Qed.
Lemma file_save s sv f : with_file (with_save s sv) f = with_file s f. Proof. reflexivity. Qed.
Lemma save_save s sv sv' : with_save (with_save s sv) sv' = with_save s sv'. Proof. reflexivity. Qed.
Definition y3 := with_save y2 (Some (["a"; "b"]%string, [])).
Definition y4 := with_save y2 (Some (["a"; "b"]%string, [da])).
Definition y5 := called y4 "" upd false w3.
Definition y6 := with_save y5 (Some (["a"; "b"]%string, [da; db])).
Definition y7 := with_file y5 [da; db].
Definition evict := AEvict (fun _ => false).
Definition w3e := go true w3 evict.
Definition y8 := called y7 "" evict false w3e.
Lemma ly4 : lists_of y4 = w2. Proof. unfold y4. rewrite lists_save. exact ly2. Qed.
Lemma ly5 : lists_of y5 = w3. Proof. apply called_lists. vm_compute. reflexivity. Qed.
Lemma ly7 : lists_of y7 = w3. Proof. unfold y7. rewrite lists_file. exact ly5. Qed.
Lemma ly8 : lists_of y8 = w3e. Proof. apply called_lists. vm_compute. reflexivity. Qed.
Lemma begin_y2 : next true y2 EBegin = Some y3.
Proof. rewrite begin_eq by reflexivity. replace (ids y2) with ["a"; "b"]%string by (vm_compute; reflexivity). reflexivity. Qed.
Lemma visit_y3 : next true y3 (EVisit "a") = Some y4.
Proof. rewrite (visit_eq true y3 "a" da) by (vm_compute; reflexivity). unfold y3 at 1. rewrite save_save. reflexivity. Qed.
Lemma visit_y5 : next true y5 (EVisit "b") = Some y6.
Proof. rewrite (visit_eq true y5 "b" db) by (vm_compute; reflexivity). replace (y_save y5) with (Some (["a"; "b"]%string, [da])) by reflexivity. reflexivity. Qed.
Lemma end_y6 : next true y6 EEnd = Some y7.
Proof. rewrite (end_eq true y6 ["a"; "b"]%string [da; db]) by reflexivity. unfold y6. rewrite file_save. reflexivity. Qed.
Lemma spec_at s nid i o ord sp id : option_map fst (nth_error (y_open s) i) = Some id ->
  call_spec s nid (AOp i o ord) sp = set id (match sp id with Some (g, z, m) => Some (g, z, spec_step m o) | None => None end) sp.
Proof. cbn [call_spec]. destruct (nth_error (y_open s) i) as [(j & d)|]; [|discriminate]. cbn. intros [= ->]. reflexivity. Qed.
Definition sp3 := set "a" (Some (2%nat, 4%nat, m1)) sp2.
Lemma sp3_eq : call_spec y4 "" upd sp2 = sp3.
Proof. unfold upd. rewrite (spec_at y4 "" 0 up1 no_ord sp2 "a"); [reflexivity|vm_compute; reflexivity]. Qed.
Lemma known_by s (sp : holdings) (ids : list string) (ms : list entry) : map fst (y_open s) = ids -> map sp ids = map Some ms -> map (fun p => sp (fst p)) (y_open s) = map Some ms.
Proof. intros <- <-. rewrite map_map. reflexivity. Qed.
Lemma upd_call : call_ok y4 sp2 "" upd.
Proof.
  exists [(2%nat, 4%nat, m0); (2%nat, 4%nat, mB)]. split; [apply (known_by y4 sp2 ["a"; "b"]%string); [vm_compute; reflexivity|reflexivity]|].
  split; [rewrite ly4; exact upd_ok|]. split; [constructor|]. split; [intros C; discriminate C|exact fits3].
Qed.
Lemma upd_next : next true y4 (ECall "" upd false) = Some y5.
Proof. apply call_eq. rewrite ly4. apply go_eq. vm_compute. reflexivity. Qed.
Lemma serves4 : serves true y4 sp2.
Proof.
  refine (V_next true true y3 sp2 (EVisit "a") y4 _ I visit_y3 (fun _ => eq_refl)). exact (V_next true true y2 sp2 EBegin y3 serves2 I begin_y2 (fun _ => eq_refl)).
Qed.
Lemma serves5 : serves true y5 sp3.
Proof. rewrite <- sp3_eq. exact (V_next true true y4 sp2 (ECall "" upd false) y5 serves4 upd_call upd_next (fun _ => eq_refl)). Qed.
Lemma serves6 : serves true y6 sp3.
Proof. exact (V_next true true y5 sp3 (EVisit "b") y6 serves5 I visit_y5 (fun _ => eq_refl)). Qed.
Lemma serves7 : serves true y7 sp3.
Proof. exact (V_next true true y6 sp3 EEnd y7 serves6 I end_y6 (fun _ => eq_refl)). Qed.
Lemma known3 s : map fst (y_open s) = ["a"; "b"]%string -> map (fun p => sp3 (fst p)) (y_open s) = map Some ms3.
Proof. intros E. apply (known_by s sp3 ["a"; "b"]%string); [exact E|reflexivity]. Qed.
Lemma evict_call : call_ok y7 sp3 "" evict.
Proof. exists ms3. split; [apply known3; vm_compute; reflexivity|]. split; [exact I|]. split; [constructor|]. split; [intros C; discriminate C|exact fits3]. Qed.
Lemma evict_next : next true y7 (ECall "" evict false) = Some y8.
Proof. apply call_eq. rewrite ly7. reflexivity. Qed.
Lemma serves8 : serves true y8 sp3.
Proof. exact (V_next true true y7 sp3 (ECall "" evict false) y8 serves7 evict_call evict_next (fun _ => eq_refl)). Qed.

(** the file is older than the update, and nothing is lost *)
Definition shown (s : sys) : list (string * option (list N)) :=
  map (fun p => (fst p, option_map (fun l => map e_id (stored_in l)) (Storage.view (y_st s) (y_c s) (snd p)))) (y_open s).
Definition open_a (lock : bool) := EOpen "a" lock "K0" "K1" 900 [].
Definition open_b := EOpen "b" false "K0" "K1" 900 [].
Example C62_run : map (fun x => (ds_id x, ds_scores x, ds_index x)) (y_file y8) = [("a", "S", "I"); ("b", "T", "J")]%string /\
  shown (then_ true y8 EStop) = [] /\
  shown (then_ false (then_ false (then_ true y8 EStop) (open_a false)) open_b) =
  [("a", Some [2; 3; 11; 12; 5; 4; 6; 7; 8; 9; 10; 1]); ("b", Some [1; 4; 9])]%string.
Proof. split; [|split]; vm_compute; reflexivity. Qed.
Example C62_orderly_holds : exists s5 sp5, next true y8 EStop = Some s5 /\ serves false s5 sp5 /\ forall id, sp5 id = sp3 id.
Proof.
  apply (C62_orderly true false y2 sp2 y3 y6 sp3 y7 y8 sp3 serves2 begin_y2).
  - refine (T_next true y3 sp2 y5 sp3 (EVisit "b") y6 _ I visit_y5 I). rewrite <- sp3_eq.
    refine (T_next true y3 sp2 y4 sp2 (ECall "" upd false) y5 _ upd_call upd_next I).
    exact (T_next true y3 sp2 y3 sp2 (EVisit "a") y4 (T_here true y3 sp2) I visit_y3 I).
  - exact end_y6.
  - exact (T_next true y7 sp3 y7 sp3 (ECall "" evict false) y8 (T_here true y7 sp3) evict_call evict_next I).
Qed.
Example C62_save_holds : exists h s, saving true h s sp3 /\ next true s EEnd = Some y7 /\ length h = 4%nat.
Proof.
  exists [y6; y5; y4; y3], y6. split; [|split; [exact end_y6|reflexivity]].
  refine (G_next true _ y5 sp3 (EVisit "b") y6 _ I visit_y5 I). rewrite <- sp3_eq.
  refine (G_next true _ y4 sp2 (ECall "" upd false) y5 _ upd_call upd_next I).
  refine (G_next true _ y3 sp2 (EVisit "a") y4 _ I visit_y3 I). exact (G_begin true y2 sp2 y3 serves2 begin_y2).
Qed.

(** ** What is lost *)
(** a list that was made and filled after the last save *)
Theorem C62_created_refuted : exists cfg s sp id g z m, serves cfg s sp /\ sp id = Some (g, z, m) /\ (exists x, sin m x) /\
  forall cfg', exists s' sp', next cfg s EStop = Some s' /\ serves cfg' s' sp' /\ ~ In id (ids s') /\ sp' id = None.
Proof.
  exists true, y1, sp1, "a"%string, 2%nat, 4%nat, m0. split; [exact serves1|]. split; [reflexivity|].
  split; [exists (mkE 80 2 [] 7 100); vm_compute; reflexivity|]. intros cfg'. apply (C62_unknown true cfg' y1 sp1 "a" serves1). intros [].
Qed.
Print Assumptions C62_created_refuted.

(** a list that was repaired after the last save, though the file had it and Repair changed no element *)
Definition w6 := go true w3e rep.
Lemma rep_ok8 : act_ok w3e ms3 rep.
Proof.
  split; [exact (proj1 rep_ok)|]. split; [split; [plain_name|split; [vm_compute; intuition discriminate|intros id; reflexivity]]|].
  split; [split; [plain_name|split; [vm_compute; intuition discriminate|intros id; reflexivity]]|]. discriminate.
Qed.
Lemma rep_call s : lists_of s = w3e -> map fst (y_open s) = ["a"; "b"]%string -> flat_map names_of (descs s ++ y_file s ++ encoded s) = ["S"; "I"; "T"; "J"; "S"; "I"; "T"; "J"]%string ->
  call_ok s sp3 "" rep.
Proof.
  intros Hl Hf Hn. exists ms3. split; [apply known3, Hf|]. split; [rewrite Hl; exact rep_ok8|]. split; [|split; [intros C; discriminate C|exact fits3]].
  assert (Hc : y_c s = w_c w3e) by (rewrite <- Hl; reflexivity).
  constructor; [|constructor; [|constructor]]; (split; [plain_name|]); unfold known_names; rewrite Hn, Hc; (split; [cbn; intuition discriminate|intros id; reflexivity]).
Qed.
Definition y9 := called y8 "" rep false w6.
Lemma rep_spec s : map fst (y_open s) = ["a"; "b"]%string -> forall id, call_spec s "" rep sp3 id = sp3 id.
Proof.
  intros E id. unfold rep. rewrite (spec_at s "" 0 rep5 no_ord sp3 "a").
  - unfold set. destruct (String.eqb_spec id "a") as [->|]; reflexivity.
  - destruct (y_open s) as [|(i & d) o]; [discriminate|]. injection E as -> _. reflexivity.
Qed.
Theorem C62_repaired_refuted : exists cfg s sp id x g z m o s', serves cfg s sp /\ sp id = Some (g, z, m) /\ (exists e, sin m e) /\
  In x (y_file s) /\ In x (descs s) /\ ds_id x = id /\
  event_ok s sp (ECall "" (AOp 0 o no_ord) false) /\ next cfg s (ECall "" (AOp 0 o no_ord) false) = Some s' /\ spec_step m o = m /\
  forall cfg', exists s'' sp'', next cfg s' EStop = Some s'' /\ serves cfg' s'' sp'' /\ In id (ids s'') /\ sp'' id = None.
Proof.
  assert (Ec : event_ok y8 sp3 (ECall "" (AOp 0 rep5 no_ord) false)) by (apply rep_call; [exact ly8|vm_compute; reflexivity..]).
  assert (En : next true y8 (ECall "" (AOp 0 rep5 no_ord) false) = Some y9) by (apply (call_eq true y8 "" rep false w6); rewrite ly8; apply go_eq; vm_compute; reflexivity).
  exists true, y8, sp3, "a"%string, da, 2%nat, 4%nat, m1, rep5, y9. split; [exact serves8|]. split; [reflexivity|].
  split; [exists (mkE 80 2 [] 7 100); vm_compute; reflexivity|]. split; [left; reflexivity|]. split; [vm_compute; left; reflexivity|]. split; [reflexivity|].
  split; [exact Ec|]. split; [exact En|]. split; [reflexivity|]. intros cfg'.
  pose proof (V_next true true y8 sp3 _ y9 serves8 Ec En (fun _ => eq_refl)) as HS.
  destruct (C62_restart true cfg' y9 _ "a" da (mkD "a" 2 4 "S2" "I2") HS) as (s'' & sp'' & A & B & C); [left; reflexivity|vm_compute; left; reflexivity|reflexivity|reflexivity|].
  exists s'', sp''. split; [exact A|]. split; [exact B|]. split; [|exact C]. rewrite (proj1 (stop_ids _ _ _ A)). left. reflexivity.
Qed.
Print Assumptions C62_repaired_refuted.

(** a list in the middle of whose Repair the save visited it, though the save ended well after the
    Repair and nothing else happened *)
Definition blank : desc := mkD "a" 2 4 "" "".
Definition y8b := with_save y8 (Some (["a"; "b"]%string, [])).
Definition y8c := called y8b "" rep true w6.
Definition y8d := with_save y8c (Some (["a"; "b"]%string, [blank; db])).
Definition y8e := with_file y8c [blank; db].
Theorem C62_repairing_refuted : exists cfg h s sp s' id g z m, saving cfg h s sp /\ next cfg s EEnd = Some s' /\ (forall t, In t h -> In id (ids t)) /\
  sp id = Some (g, z, m) /\ (exists e, sin m e) /\
  forall cfg', exists s'' sp'', next cfg s' EStop = Some s'' /\ serves cfg' s'' sp'' /\ In id (ids s'') /\ sp'' id = None.
Proof.
  assert (E1 : next true y8 EBegin = Some y8b).
  { rewrite begin_eq by reflexivity. replace (ids y8) with ["a"; "b"]%string by (vm_compute; reflexivity). reflexivity. }
  assert (L : lists_of y8b = w3e) by (unfold y8b; rewrite lists_save; exact ly8).
  assert (Ec : event_ok y8b sp3 (ECall "" rep true)) by (apply rep_call; [exact L|vm_compute; reflexivity..]).
  assert (En : next true y8b (ECall "" rep true) = Some y8c) by (apply (call_eq true y8b "" rep true w6); rewrite L; apply go_eq; vm_compute; reflexivity).
  assert (E2 : next true y8c (EVisit "b") = Some y8d).
  { rewrite (visit_eq true y8c "b" db) by (vm_compute; reflexivity). replace (y_save y8c) with (Some (["a"; "b"]%string, [blank])) by (vm_compute; reflexivity). reflexivity. }
  assert (E3 : next true y8d EEnd = Some y8e).
  { rewrite (end_eq true y8d ["a"; "b"]%string [blank; db]) by reflexivity. unfold y8d. rewrite file_save. reflexivity. }
  pose proof (G_begin true y8 sp3 y8b serves8 E1) as G1.
  pose proof (G_next true _ y8b sp3 (ECall "" rep true) y8c G1 Ec En I) as G2.
  pose proof (G_next true _ y8c _ (EVisit "b") y8d G2 I E2 I) as G3.
  pose proof (saving_serves _ _ _ _ G3) as HS. pose proof (V_next true true y8d _ EEnd y8e HS I E3 (fun _ => eq_refl)) as HS'.
  eexists true, _, y8d, _, y8e, "a"%string, 2%nat, 4%nat, m1. split; [exact G3|]. split; [exact E3|].
  split; [intros t [<-|[<-|[<-|[]]]]; vm_compute; left; reflexivity|].
  split; [cbn [spec_next]; rewrite rep_spec by (vm_compute; reflexivity); reflexivity|]. split; [exists (mkE 80 2 [] 7 100); vm_compute; reflexivity|]. intros cfg'.
  destruct (C62_restart true cfg' y8e _ "a" blank (mkD "a" 2 4 "S2" "I2") HS') as (s'' & sp'' & A & B & C); [left; reflexivity|vm_compute; left; reflexivity|reflexivity|reflexivity|].
  exists s'', sp''. split; [exact A|]. split; [exact B|]. split; [|exact C]. rewrite (proj1 (stop_ids _ _ _ A)). left. reflexivity.
Qed.
Print Assumptions C62_repairing_refuted.

(** a list that was deleted after the last save is there again, and does not load *)
Definition remove : act := ARemove 0 (fun _ => []).
Definition w7 := go true w3e remove.
Definition y10 := called y8 "" remove false w7.
Theorem C62_deleted_refuted : exists cfg s sp id, serves cfg s sp /\ ~ In id (ids s) /\
  forall cfg', exists s' sp', next cfg s EStop = Some s' /\ serves cfg' s' sp' /\ In id (ids s') /\ sp' id = None.
Proof.
  assert (Ec : event_ok y8 sp3 (ECall "" remove false)).
  { exists ms3. split; [apply known3; vm_compute; reflexivity|]. split; [exact I|]. split; [constructor|]. split; [intros C; discriminate C|]. constructor; [exact fitB|constructor]. }
  assert (En : next true y8 (ECall "" remove false) = Some y10) by (apply (call_eq true y8 "" remove false w7); rewrite ly8; apply go_eq; vm_compute; reflexivity).
  pose proof (V_next true true y8 sp3 _ y10 serves8 Ec En (fun _ => eq_refl)) as HS.
  eexists true, y10, _, "a"%string. split; [exact HS|]. split; [vm_compute; intuition discriminate|]. intros cfg'.
  assert (A : next true y10 EStop = Some (mkY (y_st y10) (fun _ => None) [] (y_file y10) (y_file y10) None)) by apply stop_eq.
  eexists _, _. split; [exact A|]. split; [eapply (V_next true cfg' y10 _ EStop); [exact HS|exact I|exact A|intros C; destruct (C eq_refl)]|].
  split; [left; reflexivity|]. cbn [spec_next]. unfold survives. replace (find_desc "a" (descs y10)) with (@None desc) by (vm_compute; reflexivity).
  destruct (find_desc "a" (y_file y10)); reflexivity.
Qed.
Print Assumptions C62_deleted_refuted.

(** a list that was reindexed after the last save is not lost, but no reader gets anything before
    a call with the update lock rebuilds the index *)
Definition ri7 : op := OReindex "I7" 700 [].
Definition reindex : act := AOp 0 ri7 no_ord.
Definition w8 := go true w3e reindex.
Definition y11 := called y8 "" reindex false w8.
Definition y12 : sys := mkY (y_st y11) (fun _ => None) [] (y_file y11) (y_file y11) None.
Lemma reindex_ok ni now : ni <> ""%string -> tick now -> op_ok 2 4 m1 (OReindex ni now []).
Proof.
  intros H1 H2. split; [exact H1|]. split; [exact H2|]. split; [lia|]. intros r Hr. rewrite (ranking_unique _ _ _ Hr (reach_ranking _ _ _ _ l1_reach)).
  replace (length (stored_in l1)) with 12%nat by (vm_compute; reflexivity). reflexivity.
Qed.
Lemma serves11 : exists sp, serves true y11 sp /\ sp "a"%string = Some (2%nat, 4%nat, m1).
Proof.
  assert (Ec : event_ok y8 sp3 (ECall "" reindex false)).
  { exists ms3. split; [apply known3; vm_compute; reflexivity|]. split; [rewrite ly8; split|].
    - intros g s m E. injection E as <- <- <-. apply reindex_ok; [discriminate|split; reflexivity].
    - split; [plain_name|split; [vm_compute; intuition discriminate|intros id; reflexivity]].
    - split; [|split; [intros C; discriminate C|exact fits3]]. constructor; [|constructor]. split; [plain_name|split; [vm_compute; intuition discriminate|intros id; vm_compute; reflexivity]]. }
  assert (En : next true y8 (ECall "" reindex false) = Some y11) by (apply (call_eq true y8 "" reindex false w8); rewrite ly8; apply go_eq; vm_compute; reflexivity).
  eexists. split; [exact (V_next true true y8 sp3 _ y11 serves8 Ec En (fun _ => eq_refl))|].
  cbn [spec_next]. unfold reindex. rewrite (spec_at y8 "" 0 ri7 no_ord sp3 "a") by (vm_compute; reflexivity). reflexivity.
Qed.
Theorem C62_reindexed_refuted : exists cfg s sp id g z m s', serves cfg s sp /\ sp id = Some (g, z, m) /\ (exists e, sin m e) /\ In id (map ds_id (y_file s)) /\
  next cfg s EStop = Some s' /\ forall cfg', exists sp', serves cfg' s' sp' /\ sp' id = Some (g, z, m) /\ ~ In id (map fst (y_open s')) /\
  forall n0 ni now sc, next cfg' s' (EOpen id false n0 ni now sc) = Some s'.
Proof.
  destruct serves11 as (sp & HS & Es). exists true, y11, sp, "a"%string, 2%nat, 4%nat, m1, y12. split; [exact HS|]. split; [exact Es|].
  split; [exists (mkE 80 2 [] 7 100); vm_compute; reflexivity|]. split; [left; reflexivity|]. assert (A : next true y11 EStop = Some y12) by apply stop_eq. split; [exact A|].
  intros cfg'. destruct (C62_restart true cfg' y11 sp "a" da (mkD "a" 2 4 "S" "I7") HS) as (s' & sp' & A' & B & C); [left; reflexivity|vm_compute; left; reflexivity|reflexivity|reflexivity|].
  rewrite A in A'. assert (s' = y12) as -> by congruence. exists sp'. split; [exact B|]. split; [rewrite C; exact Es|]. split; [intros []|].
  intros n0 ni now sc. rewrite next_open. replace (find_desc "a" (y_cold y12)) with (Some da) by reflexivity.
  assert (Eo : exists ss, open_list cfg' (y_st y12) da = NoIndex ss) by (eexists; vm_compute; reflexivity). destruct Eo as (ss & ->). reflexivity.
Qed.
Print Assumptions C62_reindexed_refuted.
Example C62_reindexed_run : shown (then_ false y12 (open_a false)) = [] /\
  shown (then_ false y12 (open_a true)) = [("a", Some [2; 3; 11; 12; 5; 4; 6; 7; 8; 9; 10; 1])]%string.
Proof. split; vm_compute; reflexivity. Qed.
(** and the hypothesis of C62_current holds there *)
Example C62_current_holds : exists sp', serves false y12 sp' /\ sp' "a"%string = Some (2%nat, 4%nat, m1) /\ event_ok y12 sp' (open_a true).
Proof.
  destruct serves11 as (sp & HS & Es). exists (survives y11 sp). split.
  - eapply (V_next true false y11 sp EStop); [exact HS|exact I|apply stop_eq|intros C; destruct (C eq_refl)].
  - assert (E : survives y11 sp "a"%string = Some (2%nat, 4%nat, m1)).
    { unfold survives. replace (find_desc "a" (y_file y11)) with (Some da) by reflexivity. replace (find_desc "a" (descs y11)) with (Some (mkD "a" 2 4 "S" "I7")) by (vm_compute; reflexivity). exact Es. }
    split; [exact E|]. split; [split; [plain_name|split; [vm_compute; intuition discriminate|intros id; reflexivity]]|].
    split; [split; [plain_name|split; [vm_compute; intuition discriminate|intros id; reflexivity]]|]. split; [discriminate|].
    intros g z m. rewrite E. intros [= <- <- <-]. apply reindex_ok; [discriminate|split; reflexivity].
Qed.
(** a Repair of a list that is lost succeeds and leaves it empty *)
Example C62_clear_run : can false (then_ true y9 EStop) (EClear "a" "K2" "K3" 950) = true /\
  shown (then_ false (then_ true y9 EStop) (EClear "a" "K2" "K3" 950)) = [("a", Some [])]%string.
Proof. split; vm_compute; reflexivity. Qed.
