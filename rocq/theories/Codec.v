(** Model of src/codec.rs and of the [tokio_util::codec::Framed] read loop that
    drives it (src/connection.rs:46-70). *)
From Verif Require Import Bytes Errors Wire Proto Crc.
Open Scope N_scope.

(** src/codec.rs:46-52, [struct Payload]. *)
Record payload := mk_payload { pl_meta : message; pl_data : bytes }.
(** src/message.rs:39-43, [struct MessageCommand]. *)
Record msg_cmd := mk_cmd { mc_cmd : message; mc_payload : option payload }.

(** [Message::write_to_bytes().unwrap()] (src/codec.rs:85,104): fails, hence
    panics here, on a missing required field or above the crate's size limit. *)
Definition proto_max : N := 2147483648.
Definition write_unwrap (m : mname) (fs : message) : outcome bytes :=
  if initialized m fs && (compute_size fs <? proto_max) then Ok (write_msg fs) else Panic.

(** Rust [u32] addition: [oc] = overflow checks on (debug build: panic) or off
    (release build: wrap). *)
Definition u32_sum (oc : bool) (n : N) : outcome N :=
  if n <? u32_max then Ok n else if oc then Panic else Ok (n mod u32_max).

(** src/codec.rs:77-117, [Encoder::encode]; the bytes appended to [dst].
    [as u32] casts are [mod u32_max]. All partial sums of line 93 are below
    2^32 exactly when the whole sum before [- 4] is, so one check suffices. *)
Definition encode (oc : bool) (mc : msg_cmd) : outcome bytes :=
  obind (write_unwrap M_BaseCommand (mc_cmd mc)) (fun command_bytes =>
  let command_size := compute_size (mc_cmd mc) mod u32_max in
  let header_size := match mc_payload mc with Some _ => 18 | None => 8 end in
  let metadata_size := match mc_payload mc with Some p => compute_size (pl_meta p) mod u32_max | None => 0 end in
  let payload_size := match mc_payload mc with Some p => blen (pl_data p) mod u32_max | None => 0 end in
  obind (u32_sum oc (command_size + metadata_size + payload_size + header_size)) (fun s =>
  let total_size := (s + u32_max - 4) mod u32_max in
  let head := put_u32 total_size ++ put_u32 command_size ++ command_bytes in
  match mc_payload mc with
  | None => Ok head
  | Some p =>
      obind (write_unwrap M_MessageMetadata (pl_meta p)) (fun meta_bytes =>
      let tail := put_u32 (compute_size (pl_meta p) mod u32_max) ++ meta_bytes ++ pl_data p in
      let checksum := crc32c tail in
      Ok (head ++ put_u16 0x0e01 ++ put_u32 checksum ++ tail))
  end)).

(** src/codec.rs:54-68, [payload_frame]: magic, checksum, metadata size,
    metadata; [None] = nom error. Only metadata and the remaining bytes are used. *)
Definition payload_frame (b : bytes) : option (bytes * bytes) :=
  match get_be 2 b with
  | None => None
  | Some (_magic, b1) =>
      match get_be 4 b1 with
      | None => None
      | Some (_checksum, b2) =>
          match get_be 4 b2 with
          | None => None
          | Some (metadata_size, b3) => take_n metadata_size b3
          end
      end
  end.

(** src/codec.rs:22-34, [command_frame]; [None] = one of its unwraps panics. *)
Definition command_frame (b : bytes) : option (bytes * bytes) :=
  match get_be 4 b with
  | None => None
  | Some (_total, b1) =>
      match get_be 4 b1 with
      | None => None
      | Some (command_size, b2) => take_n command_size b2
      end
  end.

Inductive dres :=
| Wait                                  (* Ok(None) *)
| Got (mc : msg_cmd) (rest : bytes)     (* Ok(Some(mc)); the buffer is now [rest] *)
| Crash.                                (* panic *)

(** src/codec.rs:123-157, [Decoder::decode]. *)
Definition decode (src : bytes) : dres :=
  if blen src <? 4 then Wait else
  let message_size := be_val (firstn 4 src) + 4 in
  if message_size <=? blen src then
    let frame := firstn (N.to_nat message_size) src in
    let rest := skipn (N.to_nat message_size) src in
    match command_frame frame with
    | None => Crash
    | Some (command_bytes, after) =>
        match parse_msg M_BaseCommand command_bytes with
        | None => Crash
        | Some command =>
            let pf := match after with [] => None | _ => payload_frame after end in
            match pf with
            | None => Got (mk_cmd command None) rest
            | Some (meta, data) =>
                match parse_msg M_MessageMetadata meta with
                | None => Crash
                | Some metadata => Got (mk_cmd command (Some (mk_payload metadata data))) rest
                end
            end
        end
    end
  else Wait.

(** One answer of [ConnectionStream::next] (src/connection.rs:46-70). *)
Inductive item :=
| IFrame (mc : msg_cmd)   (* Some(Ok(mc)) *)
| IErr (e : nerr)         (* Some(Err(DecodeFailed)) *)
| IEnd                    (* None *)
| IPanic.                 (* the task unwinds *)

(** [Framed::poll_next] over a buffered stream: decode until more bytes are
    needed. Result: frames, and the bytes left ([None] after a panic). Every
    frame takes at least four bytes, so the buffer length is enough fuel. *)
Fixpoint drain (fuel : nat) (buf : bytes) : list msg_cmd * option bytes :=
  match fuel with
  | O => ([], Some buf)
  | S f =>
      match decode buf with
      | Wait => ([], Some buf)
      | Crash => ([], None)
      | Got mc rest => let (ms, r) := drain f rest in (mc :: ms, r)
      end
  end.
Definition drain_all (buf : bytes) := drain (S (length buf)) buf.

(** The answers of successive [next] calls while the peer delivers the reads
    [reads] (each the non-empty content of one read) and then, if [closed],
    closes. At end of stream [decode_eof] runs [decode] once more; left-over
    bytes are an error ([bytes remaining on stream]), reported as
    [DecodeFailed], after which the stream ends. *)
Fixpoint framed (buf : bytes) (reads : list bytes) (closed : bool) : list item :=
  match reads with
  | [] =>
      if closed then
        match buf with
        | [] => [IEnd]
        | _ => [IErr DecodeFailed; IEnd]
        end
      else []
  | r :: rs =>
      match drain_all (buf ++ r) with
      | (ms, Some buf') => map IFrame ms ++ framed buf' rs closed
      | (ms, None) => map IFrame ms ++ [IPanic]
      end
  end.
(** A new connection starts with an empty buffer (src/connection.rs:76-121). *)
Definition stream_items (reads : list bytes) (closed : bool) : list item := framed [] reads closed.
