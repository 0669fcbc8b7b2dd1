(** What correlation is supposed to depend on (C22, C23). *)
From Verif Require Import Bytes Message.
Open Scope N_scope.

(** The kind of a request; for sends also the sequence number. *)
Inductive kind := KConnect | KSend (seq : N) | KAck | KLookup | KSubscribe | KAuth | KFlow | KProducer.
Definition kind_of (o : outbound) : option kind :=
  match o with
  | OPing | OPong => None
  | OConnect _ => Some KConnect
  | OSend (SSingle _ _ seq _) | OSend (SBatch _ _ seq _) => Some (KSend seq)
  | OAck _ => Some KAck
  | OLookup _ _ => Some KLookup
  | OSubscribe _ _ _ _ _ => Some KSubscribe
  | OAuth _ _ => Some KAuth
  | OFlow _ _ => Some KFlow
  | OProducer _ _ _ _ => Some KProducer
  end.
(** Which requests an event answers. *)
Definition answers (i : inbound) (k : kind) : Prop :=
  match i, k with
  | InConnected, KConnect => True
  | InReceipt _ seq _, KSend seq' => seq = seq'
  | InAckReceipt _ _, KAck => True
  | InLookup _, KLookup => True
  | InSuccess _, KSubscribe => True
  | InProducerSuccess _ _, KProducer => True
  | InAuthChallenge, KAuth => True
  | _, _ => False
  end.
