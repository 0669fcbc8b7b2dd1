(** Model of src/error.rs. *)
From Verif Require Import Bytes.

(** src/error.rs:1-17, [enum NeutronError]. Strings are UTF-8 byte lists. *)
Inductive nerr :=
| Disconnected | OperationTimeout | UnsupportedCommand | DecodeFailed | EncodeFailed
| ChannelTerminated | Unresolvable | Io | DeserializationFailed | SerializationFailed
| AuthenticationFailed (msg : bytes) | ConnectionFailed | InvalidUrl | PulsarError (msg : bytes).

(** Result of a Rust call: [Result<A, NeutronError>] plus an explicit panic. *)
Inductive outcome (A : Type) := Ok (a : A) | Err (e : nerr) | Panic.
Arguments Ok {A} a. Arguments Err {A} e. Arguments Panic {A}.

(** The [?] operator; a panic unwinds. *)
Definition obind {A B} (x : outcome A) (f : A -> outcome B) : outcome B :=
  match x with Ok a => f a | Err e => Err e | Panic => Panic end.
Definition omap {A B} (f : A -> B) (x : outcome A) : outcome B := obind x (fun a => Ok (f a)).

(** src/error.rs:19-26, [NeutronError::is_disconnect]. *)
Definition is_disconnect (e : nerr) : bool :=
  match e with Disconnected | ChannelTerminated => true | _ => false end.

(** src/error.rs:28-47, [impl Display for NeutronError]. *)
Definition render (e : nerr) : bytes :=
  match e with
  | Disconnected => str "Disconnected"
  | OperationTimeout => str "Operation timeout"
  | UnsupportedCommand => str "Unsupported command"
  | DecodeFailed => str "Decode failed"
  | EncodeFailed => str "Encode failed"
  | ChannelTerminated => str "Channel terminated"
  | Unresolvable => str "Unresolvable"
  | Io => str "IO error"
  | DeserializationFailed => str "Deserialization failed"
  | SerializationFailed => str "Serialization failed"
  | AuthenticationFailed m => str "Authentication failed: " ++ m
  | ConnectionFailed => str "Connection failed"
  | InvalidUrl => str "Invalid URL"
  | PulsarError m => str "Pulsar error: " ++ m
  end.

(** src/codec.rs:70-75, [impl From<std::io::Error> for NeutronError]: every I/O error is [Io]. *)
Definition of_io_error : nerr := Io.

Lemma render_inj a b : render a = render b -> a = b.
Proof.
  destruct a, b; vm_compute; intros H; try reflexivity; try discriminate;
    inversion H; subst; reflexivity.
Qed.
