(** Vocabulary of the frame properties: which commands are considered, and the
    frame the Pulsar specification prescribes for each. Uses only data types of
    the model, the protobuf serialisation and SpecFrame. *)
From Verif Require Import Bytes Wire Proto Codec SpecFrame.
Open Scope N_scope.

(** The payload section of a command: serialised metadata and data. *)
Definition sect (mc : msg_cmd) : option (bytes * bytes) :=
  match mc_payload mc with None => None | Some p => Some (write_msg (pl_meta p), pl_data p) end.

(** The commands a generated struct can hold: field values in the range of their
    type, strings UTF-8, required fields present. *)
Definition cmd_ok (mc : msg_cmd) : bool :=
  well_typed M_BaseCommand (mc_cmd mc) &&
  match mc_payload mc with None => true | Some p => well_typed M_MessageMetadata (pl_meta p) end.

(** The total size fits the size field. *)
Definition sendable (mc : msg_cmd) : Prop :=
  cmd_ok mc = true /\ frame_total (write_msg (mc_cmd mc)) (sect mc) < 2 ^ 32.
(** The frame including its size field is below 2^32 bytes (then the client's
    32-bit size arithmetic cannot overflow). *)
Definition fits (mc : msg_cmd) : Prop :=
  cmd_ok mc = true /\ frame_total (write_msg (mc_cmd mc)) (sect mc) + 4 < 2 ^ 32.
Definition frame_of (mc : msg_cmd) : bytes := frame_bytes (write_msg (mc_cmd mc)) (sect mc).

(** A frame body (what follows the total size) on which reading must fail:
    no room for a command size, a command size beyond the body, an invalid
    command, or a payload section with invalid metadata. *)
Definition bad_body (body : bytes) : Prop :=
  blen body < 4
  \/ (exists n r, body = be32 n ++ r /\ n < 2 ^ 32 /\ blen r < n)
  \/ (exists cmd r, body = be32 (blen cmd) ++ cmd ++ r /\ blen cmd < 2 ^ 32 /\
        parse_msg M_BaseCommand cmd = None)
  \/ (exists cmd six meta data,
        body = be32 (blen cmd) ++ cmd ++ six ++ be32 (blen meta) ++ meta ++ data /\
        blen cmd < 2 ^ 32 /\ blen six = 6 /\ blen meta < 2 ^ 32 /\
        parse_msg M_MessageMetadata meta = None).
