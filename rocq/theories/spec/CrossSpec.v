(** What it means that an object crosses over to another process as bytes. *)
From Coq Require Import ZArith String List.
From Verif.model Require Import Base Wire SchemaCode ProtoWire.
From Verif.spec Require Import WireSpec.

(** [x], the fields protobuf_dump fills in, put into the message object [m0] is written as some bytes
    [l], and whoever reads [l] (with any memory layout of its repeated fields) loads [a]. *)
Definition crosses {X A} (c : code) (d : nat) (put : X -> message -> outcome message)
    (get : message -> outcome X) (load : X -> outcome A) (x : X) (m0 : message) (a : A) : Prop :=
  exists m l, put x m0 = Ok m /\ serialize c m = Ok l
    /\ ((Z.of_nat (length l) < 2 ^ 31)%Z -> to_bytes c put x m0 = Ok l)
    /\ forall room, from_bytes room d c get load l = Ok a.

(** A way to keep floats in 32 bits: what is kept can be read back. *)
Definition float_bits {F} (bits : F -> Z) (unbits : Z -> F) : Prop :=
  (forall x, unbits (bits x) = x) /\ (forall x, (0 <= bits x < 2 ^ 32)%Z).

(** [m0] is a message object of type [name]; what it holds is left open. *)
Definition is_message (d : nat) (name : string) (m0 : message) : Prop :=
  exists sch, In (name, sch) schema_proto /\ message_of d sch m0.
