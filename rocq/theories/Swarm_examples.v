(** Data for the examples beside the theorems about the swarm task. *)
From Coq Require Import List NArith Init.Byte Strings.Byte.
From Verif Require Import ActorId ActorId_examples Swarm Swarm_spec.
Import ListNotations.

(** Equality by the kernel's virtual machine. *)
Ltac by_vm := match goal with |- ?a = ?b => exact (eq_refl b <: a = b) end.

(** The example peers; payloads, results and stop reasons are numbers. *)
Definition sw_types : swarm_types := mk_types ex_peers nat nat nat.
Definition sw_a : peer (st_peers sw_types) := ex_node_a.
Definition sw_b : peer (st_peers sw_types) := ex_node_b.
Definition sw_id (n : N) : actor_id (st_peers sw_types) := id_with_peer ex_peers n ex_node_b.
Definition sw_own (n : N) : actor_id (st_peers sw_types) := id_new ex_peers n.
Definition sw_ask (n : N) (b : nat) : call sw_types := CAsk sw_b (sw_id n) b.

Definition sw_result (n : nat) : st_result sw_types := n.

(** The name, and the registration of the node's own actor 7 with remote id "héo". *)
Definition sw_key : list byte := [x6b].
Definition sw_value : list byte := reg_into_bytes ex_peers (Some ex_node_a) (mk_reg (id_new ex_peers 7) ex_name).
Definition sw_table : list (actor_id (st_peers sw_types) * entry) :=
  [(sw_own 8, mk_entry 2 31); (sw_own 7, mk_entry 1 30)].

(** Two asks and a lookup in flight, answered out of order, with stray, repeated and
    misdirected events in between. *)
Definition sw_events : list (event sw_types) :=
  [ESend (sw_ask 1 10); ESend (sw_ask 2 20); ESend (CLookup sw_key); ECommand 1 true; ECommand 2 true;
   ECommand 1 true; ENet (NResponse 1 (RResult KAsk (sw_result 200))); ENet (NResponse 1 (RResult KAsk (sw_result 999)));
   ENet (NFound 1 []); ENet (NPut 0 PrOk); ENet (NFailure 0 OfTimeout); ENet (NFound 0 sw_value);
   ENet (NGetError 0 GeTimeout)].

(** A request served on this node (no peers) whose task panics, a registration the
    store refuses, and what follows. *)
Definition sw_crash : list (event sw_types) :=
  [ESend (sw_ask 1 10); ESend (sw_ask 2 20); ESend (CLookup sw_key); ESend (CRegister sw_key sw_value);
   ESend CDial; ECommand 0 true; ECommand 0 true; ECommand 1 true; ETask 0 None; ECommand 1 false;
   ESend CDial; ETask 1 (Some (sw_result 5))].
