(** Model of the write half of [tokio_util::codec::Framed], which
    src/connection.rs:28-44 ([ConnectionStream::send]) drives through
    [SinkExt::send]: poll_ready, then start_send, then poll_flush
    (tokio-util's framed_impl.rs, not in /repo; written from its documentation). *)
From Verif Require Import Bytes.
Open Scope N_scope.

(** Framed asks for a flush before it takes a command once this many bytes wait. *)
Definition backpressure : N := 8192.

(** What the transport (TCP or TLS stream) answers to one write: it takes [n] bytes
    (at most those offered; 0 is reported as an error), or it fails. *)
Inductive wres := Took (n : N) | Fails.
(** What the transport does during one [send]: its answers to the writes of the flush
    before the command is taken and of the flush after, and whether its own flush
    then succeeds. When the answers run out the transport takes nothing more; a
    [send] that waits for ever has written the same bytes as one that fails there. *)
Record io_plan := mk_io { io_ready : list wres; io_ready_end : bool; io_write : list wres; io_end : bool }.

(** The bytes waiting in the Framed's write buffer and the bytes the transport took. *)
Record sink := mk_sink { sk_buf : bytes; sk_sent : bytes }.
Definition sink_init : sink := mk_sink [] [].

(** poll_flush: write until the buffer is empty; an error leaves the rest in it. *)
Fixpoint poll_flush (k : sink) (ws : list wres) (fin : bool) : sink * bool :=
  match sk_buf k with
  | [] => (k, fin)
  | _ :: _ =>
      match ws with
      | Took n :: r =>
          if n =? 0 then (k, false)
          else let m := N.to_nat (N.min n (blen (sk_buf k))) in
               poll_flush (mk_sink (skipn m (sk_buf k)) (sk_sent k ++ firstn m (sk_buf k))) r fin
      | _ => (k, false)
      end
  end.

(** src/connection.rs:28-44 with [SinkExt::send]: the command's frame is appended to
    the buffer only if poll_ready succeeds (src/codec.rs:111-114: encode appends the
    whole frame in one step). Result: the sink, whether the frame was taken into the
    buffer, and whether [send] returned Ok. The caller ignores the result
    (src/connection.rs:137-138). *)
Definition send_frame (k : sink) (p : io_plan) (frame : bytes) : sink * bool * bool :=
  let (k1, ready) := if backpressure <=? blen (sk_buf k) then poll_flush k (io_ready p) (io_ready_end p) else (k, true) in
  if ready then
    let (k2, ok) := poll_flush (mk_sink (sk_buf k1 ++ frame) (sk_sent k1)) (io_write p) (io_end p) in (k2, true, ok)
  else (k1, false, false).
(** A transport that takes everything at once. *)
Definition steady (_ : nat) : io_plan := mk_io [Took 1000000] true [Took 1000000] true.
