(** Model of the token request of [ClientCredentialsOAuth2] (src/auth.rs:15-23, 42-68, 89-105).

    [reqwest]'s [form] (serde_urlencoded, form_urlencoded: dependencies) is modelled:
    the fields in the order of the struct, application/x-www-form-urlencoded. The HTTP
    transport is not. *)
From Coq Require Import Strings.Byte.
From Verif Require Import Bytes.
Open Scope N_scope.

(** [[String]::join]. *)
Fixpoint join (sep : bytes) (l : list bytes) : bytes :=
  match l with [] => [] | [x] => x | x :: r => x ++ sep ++ join sep r end.
(** src/auth.rs:42-49, [ClientCredentialsOAuth2] without its cache. *)
Record oauth := mk_oauth { oa_id : bytes; oa_secret : bytes; oa_authority : bytes; oa_scope : bytes; oa_audience : option bytes }.
(** src/auth.rs:52-68, [new]. *)
Definition oauth_new (id secret authority : bytes) (scopes : list bytes) (audience : option bytes) : oauth :=
  mk_oauth id secret authority (join (str " ") scopes) audience.

(** The bytes a form value keeps: letters, digits and [*-._]. *)
Definition kept (x : byte) : bool :=
  let n := b2n x in
  ((48 <=? n) && (n <=? 57)) || ((65 <=? n) && (n <=? 90)) || ((97 <=? n) && (n <=? 122)) ||
  (n =? 42) || (n =? 45) || (n =? 46) || (n =? 95).
Definition hex (n : N) : byte := n2b (if n <? 10 then 48 + n else 55 + n).
Definition form_byte (x : byte) : bytes :=
  if kept x then [x] else if b2n x =? 32 then [x2b] else [x25; hex (b2n x / 16); hex (b2n x mod 16)].
Definition form_value (v : bytes) : bytes := flat_map form_byte v.
Definition form_pair (p : bytes * bytes) : bytes := form_value (fst p) ++ [x3d] ++ form_value (snd p).
Definition form (ps : list (bytes * bytes)) : bytes := join (str "&") (map form_pair ps).

(** src/auth.rs:15-23 and 93-99: the fields, in this order; a missing audience is left out. *)
Definition token_fields (a : oauth) : list (bytes * bytes) :=
  [(str "client_id", oa_id a); (str "scope", oa_scope a); (str "client_secret", oa_secret a);
   (str "grant_type", str "client_credentials")] ++
  match oa_audience a with Some x => [(str "audience", x)] | None => [] end.
(** src/auth.rs:92-99. *)
Definition token_url (a : oauth) : bytes := oa_authority a ++ str "/oauth2/v2.0/token".
Definition token_body (a : oauth) : bytes := form (token_fields a).
