(** Model of src/auth.rs: the token cache of [ClientCredentialsOAuth2].

    Times are nanoseconds since the epoch (Z). A schedule is a list of events:
    a caller gets the lock and reads the clock, the token endpoint's answer (or a
    transport or JSON error) reaches the caller that asked, or a caller's future
    is dropped while it waits for the endpoint. The HTTP request itself
    (src/auth.rs:89-105) is modelled in Token.v; here its result is part of the event. *)
From Verif Require Import Bytes Errors.
Open Scope Z_scope.

(** src/auth.rs:31-35, [CachedToken]. *)
Record token := mk_token { tk_value : bytes; tk_expires : Z }.
(** src/auth.rs:25-29, [OAuth2TokenResponse], or the text of the error. *)
Inductive endpoint_answer := Granted (value : bytes) (expires_in : Z) | Refused (text : bytes).

(** src/auth.rs:49, the cache and its mutex: the caller holding the guard across
    the request, if any. *)
Record auth_st := mk_auth { cache : option token; holder : option nat }.
(** src/auth.rs:53-68, [new]. *)
Definition auth_init : auth_st := mk_auth None None.

Inductive auth_ev :=
| Call (i : nat) (now : Z)                          (* 71-73: lock taken, clock read *)
| Answer (i : nat) (r : endpoint_answer) (now : Z)  (* 80-83: answer received, clock read *)
| Cancel (i : nat).                                 (* future dropped at the await of line 80 *)
Inductive auth_obs := Fetch (i : nat) | Return (i : nat) (r : outcome bytes).

(** src/auth.rs:38-40, [is_expired]. *)
Definition is_expired (now : Z) (t : token) : bool := tk_expires t <? now.

(** chrono's [Duration::seconds] and [DateTime + Duration]: panic outside the
    representable range, here the argument [rng]. *)
Definition add_seconds (rng : Z * Z) (now secs : Z) : option Z :=
  let t := now + secs * 1000000000 in
  if (fst rng <=? t) && (t <=? snd rng) then Some t else None.

(** src/auth.rs:70-87, [get_auth_data], with the error mapping of [auth_data] (110-114). *)
Definition auth_step (rng : Z * Z) (s : auth_st) (e : auth_ev) : option (auth_st * list auth_obs) :=
  match e, holder s with
  | Call i now, None =>
      match cache s with
      | Some t => if is_expired now t then Some (mk_auth (cache s) (Some i), [Fetch i])
                  else Some (s, [Return i (Ok (tk_value t))])
      | None => Some (mk_auth (cache s) (Some i), [Fetch i])
      end
  | Answer i (Granted v secs) now, Some j =>
      if (i =? j)%nat then
        match add_seconds rng now secs with
        | Some exp => Some (mk_auth (Some (mk_token v exp)) None, [Return i (Ok v)])
        | None => Some (mk_auth (cache s) None, [Return i Panic])
        end
      else None
  | Answer i (Refused text) now, Some j =>
      if (i =? j)%nat then Some (mk_auth (cache s) None, [Return i (Err (AuthenticationFailed text))]) else None
  | Cancel i, Some j => if (i =? j)%nat then Some (mk_auth (cache s) None, []) else None
  | _, _ => None
  end.

Fixpoint auth_run (rng : Z * Z) (s : auth_st) (h : list auth_ev) : option (auth_st * list auth_obs) :=
  match h with
  | [] => Some (s, [])
  | e :: r => match auth_step rng s e with
              | None => None
              | Some (s1, o1) => match auth_run rng s1 r with
                                 | None => None
                                 | Some (s2, o2) => Some (s2, o1 ++ o2)
                                 end
              end
  end.

(** src/auth.rs:116-118, [auth_method_name]. *)
Definition oauth_method_name : bytes := str "token".
