(** Concrete schedules, used to show that the hypotheses of the engine theorems are met. *)
From Verif Require Import Bytes Errors Wire Proto Codec Address Message Client Engine SpecEngine EngineInv.
Open Scope N_scope.

Definition xcfg : config := mk_config (str "pulsar://b") 1.
Definition xE : env := mk_env xcfg None true.
Definition xA : baddr := broker_address xcfg.
Definition fr (ty : Z) (sub : message) : item := IFrame (mk_cmd (base ty (Z.to_N ty) sub) None).
Definition f_connected : item := fr 3 [].
Definition f_ack (cid : Z) : item := fr 38 [(1, PInt cid)].
Definition f_receipt (pid seq : Z) : item := fr 7 [(1, PInt pid); (2, PInt seq); (3, PMsg [(1, PInt 5); (2, PInt 6)])].
Definition f_lookup (rid : Z) (url : bytes) (proxy : Z) : item := fr 24 [(1, PBytes url); (3, PInt 1); (4, PInt rid); (8, PInt proxy)].
Definition f_success (rid : Z) : item := fr 13 [(1, PInt rid)].
Definition f_producer (rid : Z) : item := fr 17 [(1, PInt rid); (2, PBytes (str "prod"))].
Definition f_ping : item := fr 18 [].
Definition f_error (rid : Z) : item := fr 14 [(1, PInt rid); (2, PInt 1); (3, PBytes (str "no"))].
Definition f_send_error (pid seq : Z) : item := fr 8 [(1, PInt pid); (2, PInt seq); (3, PInt 1); (4, PBytes (str "no"))].
Definition f_msg (cid entry : Z) (d : bytes) : item :=
  IFrame (mk_cmd (base 9 9 [(1, PInt cid); (2, PMsg [(1, PInt 7); (2, PInt entry)])]) (Some (mk_payload [(1, PBytes (str "p")); (2, PInt 0); (3, PInt 0)] d))).
(** Registration of two clients, 0 and 1 (with ids 0 and 1). *)
Definition x_reg2 : list event :=
  [EvStart true; EvNewId; EvNewId; EvRegister 0 (str "t"); EvReg; EvConfirm 0%nat; EvRegister 1 (str "t"); EvReg; EvConfirm 1%nat].
(** A client connects (with and without authentication). *)
Definition x_connect (h : nat) : list event :=
  [EvIssue h (OConnect (mk_connect None None None)); EvClient h; EvWrite xA 0 true; EvNet xA f_connected; EvAnswered].
Definition mid56 : message := [(1, PInt 5); (2, PInt 6)].
Definition x_ack (id : N) : outbound := OAck [mk_ack id mid56 0].
Definition logs (o : option sys) : option (list obs) := match o with Some s => Some (s_log s) | None => None end.
Definition xrun (h : list event) : option (list obs) := logs (run xE sys_init h).
(** The state a concrete schedule leads to. *)
Lemma xreach h l : xrun h = Some l -> exists s, reach xE h s /\ s_log s = l.
Proof. unfold xrun, reach. destruct (run xE sys_init h) as [s|]; [|discriminate]. cbn. intros [= <-]. eauto. Qed.

(** Two acks of different clients in flight: the first client's ack fails although
    the broker answered it, the second client's completes with the first's answer. *)
Definition x_two_acks : list event :=
  x_reg2 ++ x_connect 0%nat ++ x_connect 1%nat ++
  [EvIssue 0%nat (x_ack 0); EvIssue 1%nat (x_ack 1); EvClient 0%nat; EvClient 1%nat; EvWrite xA 0 true; EvWrite xA 0 true;
   EvNet xA (f_ack 0); EvConn xA].
Lemma xwit h (P : list obs -> Prop) : match xrun h with Some l => P l | None => False end -> exists s, reach xE h s /\ P (s_log s).
Proof. unfold xrun, reach. destruct (run xE sys_init h) as [s|]; cbn; [eauto|tauto]. Qed.
