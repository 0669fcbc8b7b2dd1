(** Model of where a connection is opened to (src/connection.rs:75-109).

    [Url::parse], [host_str] and [port] of the url crate (a dependency, not part of
    the repository) are modelled, following the WHATWG URL standard, on two classes
    of urls: [scheme://host] and [scheme://host:port] with plain host characters, and
    texts without any slash. On every other text the result is a parameter. *)
From Verif Require Import Bytes Errors Address.
Open Scope N_scope.

Definition between (lo hi : N) (x : byte) : bool := (lo <=? b2n x) && (b2n x <=? hi).
Definition is_digit (x : byte) : bool := between 48 57 x.
Definition is_alpha (x : byte) : bool := between 65 90 x || between 97 122 x.
(** The characters of a scheme: letters, digits, plus, minus, dot. *)
Definition scheme_char (x : byte) : bool := is_alpha x || is_digit x || (b2n x =? 43) || (b2n x =? 45) || (b2n x =? 46).
(** Host characters the parser leaves as they are: letters, digits, minus, dot, underscore. *)
Definition host_char (x : byte) : bool := is_alpha x || is_digit x || (b2n x =? 45) || (b2n x =? 46) || (b2n x =? 95).
Definition lower (x : byte) : byte := if between 65 90 x then n2b (b2n x + 32) else x.
(** The schemes with rules of their own (default ports, host syntax). *)
Definition special (scheme : bytes) : bool :=
  existsb (bytes_eqb (map lower scheme)) [str "http"; str "https"; str "ws"; str "wss"; str "ftp"; str "file"].

(** The longest initial part whose bytes satisfy [p], and the rest. *)
Fixpoint span (p : byte -> bool) (l : bytes) : bytes * bytes :=
  match l with
  | [] => ([], [])
  | x :: r => if p x then let (a, b) := span p r in (x :: a, b) else ([], l)
  end.

(** Scheme, host and port of a url of the first class. *)
Definition simple_url (u : bytes) : option (bytes * bytes * option bytes) :=
  let (scheme, r) := span scheme_char u in
  if match scheme with c :: _ => is_alpha c | [] => false end then
    if starts_with (str "://") r then
      let (host, port) := span host_char (skipn 3 r) in
      match host, port with
      | [], _ => None
      | _, [] => Some (scheme, host, None)
      | _, c :: ds => if (b2n c =? 58) && forallb is_digit ds then Some (scheme, host, Some ds) else None
      end
    else None
  else None.
(** A text of the second class, and its scheme if it has one: letters first, up to a
    colon. *)
Definition slashless (u : bytes) : bool := forallb (fun x => scheme_char x || (b2n x =? 58)) u.
Definition scheme_of (u : bytes) : bytes :=
  match span scheme_char u with (c :: s, _ :: _) => if is_alpha c then c :: s else [] | _ => [] end.

(** src/connection.rs:76-87: the host and port to connect to. A url without
    authority has no host; of a url whose scheme has no default port the port is the
    one written, a u16. *)
Definition url_target (other : bytes -> outcome (bytes * N)) (u : bytes) : outcome (bytes * N) :=
  match simple_url u with
  | Some (scheme, host, port) =>
      if special scheme then other u
      else match port with
           | None | Some [] => Err InvalidUrl
           | Some ds => if undec ds <? 65536 then Ok (host, undec ds) else Err InvalidUrl
           end
  | None => if slashless u && negb (special (scheme_of u)) then Err InvalidUrl else other u
  end.
(** src/connection.rs:75-115, up to what the network does: the host, the port, and
    whether TLS is spoken (with the host as the name to be authenticated). *)
Record plan := mk_plan { pl_host : bytes; pl_port : N; pl_tls : bool }.
Definition connect_plan (other : bytes -> outcome (bytes * N)) (a : baddr) : outcome plan :=
  match url_target other (base_url a) with
  | Ok (h, p) => Ok (mk_plan h p (is_tls a))
  | Err e => Err e
  | Panic => Panic
  end.
