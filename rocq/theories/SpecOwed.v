(** What a client is owed, as the log of the engine shows it. *)
From Verif Require Import Bytes Address Message Client Engine SpecEngine.
Open Scope N_scope.

(** An event from the client's broker is for the client if it names the client's
    number: a send receipt by its producer number, an acknowledgement receipt and a
    message by their consumer number. Pings are for the connection alone. Every other
    event names nobody and is for each client of that broker. *)
Definition is_for (number : N) (i : inbound) : bool :=
  match i with
  | InReceipt producer _ _ => producer =? number
  | InAckReceipt consumer _ => consumer =? number
  | InMessage d => d_cid d =? number
  | InPing => false
  | _ => true
  end.
(** The entry that follows says that the event was the answer to a waiting request. *)
Definition answered (rest : list obs) : bool := match rest with OAnswer _ _ _ :: _ => true | _ => false end.
(** The events the engine took, from the broker the client was assigned to at that
    moment, that answered no request and were for the client; each with the broker. *)
Fixpoint owed_from (service : baddr) (h : nat) (v : view) (l : list obs) : list (baddr * inbound) :=
  match l with
  | [] => []
  | x :: rest =>
      match x with
      | OHandle a _ i =>
          if negb (answered rest) && same_home (v_home v) a && match v_id v with Some number => is_for number i | None => false end
          then [(a, i)] else []
      | _ => []
      end ++ owed_from service h (look_step service h v x) rest
  end.
Definition owed (service : baddr) (h : nat) (l : list obs) : list (baddr * inbound) :=
  owed_from service h (mk_view [] None None [] []) l.
(** What the client sees of them. *)
Definition shown_as (x : baddr * inbound) (j : inbound) : Prop := seen_as (fst x) (snd x) j.
