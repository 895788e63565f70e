(** A concrete run of a server, used by C54, C55 and C57. *)
From Coq Require Import Strings.String Strings.Ascii Strings.Byte ZArith.
From Verif.Lib Require Import Prelude ListAux Bytes.
From Verif.Model Require Import Element Elements Segment List Access Api Server.
From Verif.Spec Require Import RankSpec QuerySpec HistorySpec AccessSpec ServerSpec.
Open Scope N_scope.

Definition str (s : string) : bytes := list_ascii_of_string s.
Definition v0 : env := Env 1000 1001 "S"%string "I"%string [1; 0]%nat [] [1]%nat [] (fun _ => []) (fun _ => []) 0.
Definition w0 : bytes -> env := fun _ => v0.
Definition ae (id score : N) (tie : option N) (p : list byte) : apielem := AE id score tie p.
Definition req (q : request) : event := E_request v0 w0 NoToken q.

Definition run0 : list event :=
  [ req (Q_create_list (str "dk") (str "set1") (Some [(str "country", str "dk")]) 10 20 true false
           [Some (ae 1 500 None []); Some (ae 2 700 (Some 3) [x01]); None; Some (ae 1 400 None [])])
  ; req (Q_create_list (str "se") (str "set2") (Some [(str "country", str "se")]) 10 20 true false [Some (ae 9 50 None [])])
  ; req (Q_put (str "dk") (str "3") (ae 3 600 None [x02]) 5)
  ; E_split (str "dk") true 1002
  ; E_reload (str "se")
  ; req (Q_put_multi (str "dk") [Some (ae 2 100 None []); Some (ae 4 650 None [])] true)
  ; req (Q_m_create (Sel [str " se "; str "nope"] [(str "country", str "dk")] []) [Some (ae 4 10 None [])] false false)
  ; req (Q_delete (str "dk") (str "1"))
  ; req (Q_clone (str "dk") (str "copy") (str "set1") None 12 30 false false)
  ; req (Q_range (str "dk") (Some 0%nat) None 10)
  ; req (Q_get (str "copy") (str "2") 1)
  ; req (Q_get (str "dk") (str "x") 1)
  ; req (Q_get_multi (str "se") [4; 9; 77])
  ; E_request v0 w0 (Claims (CText (str "se")) CNone) (Q_get (str "dk") (str "2") 1)
  ; req (Q_delete_list (str "copy"))
  ; req (Q_get_list (str "copy") true) ].

Lemma v0_ok : env_ok v0.
Proof. unfold env_ok, tick, max_u32; cbn. repeat split; try lia; discriminate. Qed.
Lemma run0_ok : Forall event_ok run0.
Proof.
  assert (E : forall a b c d, a < 2 ^ 64 -> b < 2 ^ 64 -> match c with Some t => t < 2 ^ 32 | None => True end -> elem_sent (ae a b c d)) by (intros; repeat split; assumption).
  assert (M : forall k v : bytes, meta_sent (Some [(k, v)])) by (intros; repeat constructor; intros []).
  unfold run0. repeat (apply Forall_cons; [|]); try apply Forall_nil; cbn [event_ok req request_ok];
    try exact I; try (unfold tick, max_u32; lia);
    (split; [exact v0_ok|split; [intros ?; exact v0_ok|]]); try exact I;
    repeat match goal with
    | |- _ /\ _ => split
    | |- sizes_sent _ _ => unfold sizes_sent; lia
    | |- meta_sent (Some _) => apply M
    | |- meta_sent None => exact I
    | |- elem_sent _ => apply E; try exact I; reflexivity
    | |- elems_sent _ => unfold elems_sent; cbn [In]; intros a H
    | H : _ \/ _ |- _ => destruct H as [H|H]
    | H : False |- _ => destruct H
    | H : None = Some _ |- _ => discriminate H
    | H : Some _ = Some _ |- _ => injection H as <-
    | |- Forall _ [] => constructor
    | |- Forall _ (_ :: _) => constructor; [reflexivity|]
    end.
Qed.
