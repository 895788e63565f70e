(** C74: the hosts of the Aerospike store. *)
From Coq Require Import Strings.String Strings.Ascii.
From Verif.Lib Require Import Prelude ListAux Bytes.
From Verif.Model Require Import Keys Access Hosts.
From Verif.Spec Require Import AccessSpec HostSpec.
From Verif.Proof Require Import HostP.
Open Scope Z_scope.

(** one host for each piece between commas, as the specification of a piece says, and the specification leaves one answer *)
Theorem C74_hosts : forall s default l, parse_hosts s default = l <->
  exists ps, pieces ","%char s ps /\ Forall2 (host_spec default) ps l.
Proof. exact c74_parse. Qed.
Print Assumptions C74_hosts.

(** as many hosts as commas and one more, so there is always a host *)
Theorem C74_count : forall s default, length (parse_hosts s default) = S (length (filter (Ascii.eqb ","%char) s)).
Proof. exact c74_count. Qed.
Print Assumptions C74_count.
Theorem C74_never_none : forall s, new_hosts s = Some (parse_hosts s 3000).
Proof. exact c74_some. Qed.
Print Assumptions C74_never_none.
(** no port is zero or negative unless the default is *)
Theorem C74_port : forall s default n p, In (n, p) (parse_hosts s default) -> p = default \/ 0 < p <= 2 ^ 63 - 1.
Proof. exact c74_port. Qed.
Print Assumptions C74_port.

Example C74_ex : parse_hosts (lit "db1:3100, db2 ,db3:+7:x,db4:-1,db5:abc") 3000 =
  [(lit "db1", 3100); (lit "db2", 3000); (lit "db3", 7); (lit "db4", 3000); (lit "db5", 3000)].
Proof. vm_compute. reflexivity. Qed.

(** a blank before the port: the default port is taken without an error *)
Theorem C74_blank_refuted : exists s, s = lit "db: 3100" /\ new_hosts s = Some [(lit "db", 3000)].
Proof. eexists. split; [reflexivity|]. vm_compute. reflexivity. Qed.
Print Assumptions C74_blank_refuted.
(** no hosts given: one host without a name; the error "no hosts specified" is never returned *)
Theorem C74_empty_refuted : exists s, s = [] /\ new_hosts s = Some [([], 3000)].
Proof. eexists. split; [reflexivity|]. vm_compute. reflexivity. Qed.
Print Assumptions C74_empty_refuted.
(** a port that is far too big is a port *)
Theorem C74_range_refuted : exists s, s = lit "db:99999999999999999999x" /\ new_hosts s = Some [(lit "db", 2 ^ 63 - 1)].
Proof. eexists. split; [reflexivity|]. vm_compute. reflexivity. Qed.
Print Assumptions C74_range_refuted.
(** an IPv6 address is cut at its first colon *)
Theorem C74_ipv6_refuted : exists s, s = lit "[::1]:3100" /\ new_hosts s = Some [(lit "[", 3000)].
Proof. eexists. split; [reflexivity|]. vm_compute. reflexivity. Qed.
Print Assumptions C74_ipv6_refuted.
