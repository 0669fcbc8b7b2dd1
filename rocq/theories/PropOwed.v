(** C71: which events a client receives. *)
From Verif Require Import Bytes Errors Wire Proto Codec Address Message SpecMessage Client Engine SpecEngine SpecStack SpecOwed EngineFacts EngineInv EngineReq EngineEv EngineConn EngineLog EngineView EngineOwed EngineEx PropEngine.
Open Scope N_scope.
Arguments look : simpl never.
Arguments owed : simpl never.
Arguments gots : simpl never.

Lemma shown_told sv c l : Forall2 shown_as (owed sv c l) (told sv c l).
Proof. unfold told. induction (owed sv c l) as [|[a i] r IH]; cbn; constructor; auto. apply fix_seen. Qed.

(** What a client has received is, event by event, an initial part of what it is
    owed; as long as the client exists the rest waits in its channel. *)
Theorem C71_gets_what_is_owed : forall E h s c, reach E h s -> newids h <= 2 ^ 64 ->
  exists rest, Forall2 shown_as (owed (broker_address (e_cfg E)) c (s_log s)) (gots c (s_log s) ++ rest) /\
    (ch_client (s_ch s c) = true -> rest = ch_down (s_ch s c)).
Proof.
  intros E h s c H Hn. destruct (o_in E s (reach_owed E h s H Hn) c) as (rest & A & B). exists rest. split; auto.
  rewrite <- A. apply shown_told.
Qed.
Print Assumptions C71_gets_what_is_owed.

Lemma owed_split sv c l1 a ser i l2 : answered l2 = false -> v_home (look sv c l1) = Some a ->
  (exists id, v_id (look sv c l1) = Some id /\ is_for id i = true) -> In (a, i) (owed sv c (l1 ++ OHandle a ser i :: l2)).
Proof.
  intros A Hh (id & Hi & F). rewrite owed_app by reflexivity. apply in_app_iff. right. cbn [owed_from].
  rewrite A, Hh, Hi, F. unfold same_home. rewrite baddr_eqb_refl. now left.
Qed.
Lemma owed_in sv c l : forall a i, In (a, i) (owed sv c l) -> exists l1 ser l2 id, l = l1 ++ OHandle a ser i :: l2 /\ answered l2 = false /\
  v_home (look sv c l1) = Some a /\ v_id (look sv c l1) = Some id /\ is_for id i = true.
Proof.
  intros a i. unfold owed, look. generalize (mk_view [] None None [] []) as v. induction l as [|x l IH]; intros v X; [destruct X|].
  cbn [owed_from] in X. apply in_app_iff in X as [X|X].
  - exists []. cbn [fold_left app]. destruct x as [| | | | | | | | |b ser j| | | | | | | | |]; try contradiction.
    destruct (answered l) eqn:A; [destruct X|]. cbn [negb andb] in X. destruct (v_home v) as [b'|]; [|destruct X]. cbn [same_home] in X. destruct (baddr_eqb b' b) eqn:B; [|destruct X].
    apply baddr_eqb_spec in B as ->. destruct (v_id v) as [id|]; [|destruct X]. cbn [andb] in X. destruct (is_for id j) eqn:F; [|destruct X].
    destruct X as [[= -> ->]|[]]. exists ser, l, id. auto.
  - destruct (IH _ X) as (l1 & ser & l2 & id & El & Y). exists (x :: l1), ser, l2, id. split; [cbn; now rewrite El|exact Y].
Qed.
(** A receipt, acknowledgement receipt or message that answers no request goes to the
    client it names, if that client is at the broker it came from. *)
Theorem C71_stray_reaches_its_client : forall E h s c l1 a ser i l2 id, reach E h s -> newids h <= 2 ^ 64 ->
  s_log s = l1 ++ OHandle a ser i :: l2 -> (forall n ser' j r, l2 <> OAnswer n ser' j :: r) ->
  v_home (look (broker_address (e_cfg E)) c l1) = Some a -> v_id (look (broker_address (e_cfg E)) c l1) = Some id -> is_for id i = true ->
  ch_client (s_ch s c) = true ->
  exists j, seen_as a i j /\ In j (gots c (s_log s) ++ ch_down (s_ch s c)).
Proof.
  intros E h s c l1 a ser i l2 id H Hn El A Hh Hi F Cl.
  assert (A' : answered l2 = false) by (destruct l2 as [|[]]; cbn; auto; exfalso; eapply A; reflexivity).
  destruct (C71_gets_what_is_owed E h s c H Hn) as (rest & G & R). rewrite (R Cl) in G. rewrite El in G at 1.
  pose proof (owed_split (broker_address (e_cfg E)) c l1 a ser i l2 A' Hh (ex_intro _ id (conj Hi F))) as X.
  revert X. induction G as [|x y xs ys Q G IH]; [intros []|]. intros [->|X]; [exists y; split; [exact Q|now left]|].
  destruct (IH X) as (j & J1 & J2). exists j. split; [exact J1|now right].
Qed.
(** Nothing else: every event a client has received came from the broker it was at,
    was for it, and answered no request. *)
Theorem C71_received_was_for_it : forall E h s c j, reach E h s -> newids h <= 2 ^ 64 -> In j (gots c (s_log s)) ->
  exists l1 a ser i l2 id, s_log s = l1 ++ OHandle a ser i :: l2 /\ (forall n ser' x r, l2 <> OAnswer n ser' x :: r) /\ seen_as a i j /\
    v_home (look (broker_address (e_cfg E)) c l1) = Some a /\ v_id (look (broker_address (e_cfg E)) c l1) = Some id /\ is_for id i = true.
Proof.
  intros E h s c j H Hn Hj. destruct (C71_gets_what_is_owed E h s c H Hn) as (rest & G & _).
  assert (Hj' : In j (gots c (s_log s) ++ rest)) by (apply in_app_iff; auto).
  assert (X : exists x, In x (owed (broker_address (e_cfg E)) c (s_log s)) /\ shown_as x j).
  { revert Hj'. clear -G. induction G as [|x y xs ys Q G IH]; [intros []|]. intros [->|X]; [exists x; split; [now left|exact Q]|].
    destruct (IH X) as (z & Z1 & Z2). exists z. split; [now right|exact Z2]. }
  destruct X as ((a & i) & X & Y). apply owed_in in X as (l1 & ser & l2 & id & El & A & B & C & D).
  exists l1, a, ser, i, l2, id. split; [exact El|]. split; [intros n ser' x r ->; discriminate|]. auto.
Qed.
Print Assumptions C71_received_was_for_it.

(** Two clients at one broker. Two acknowledgements are in flight at once, so the
    second receipt answers nobody: it goes to client 1, which it names, alone. A
    success that answers no request goes to both, a ping to neither. Client 0 has
    taken one of its two events. *)
Definition x_owed : list event := x_two_acks ++
  [EvNet xA (f_ack 1); EvConn xA; EvNet xA f_ping; EvConn xA; EvNet xA (f_success 9); EvConn xA; EvNet xA (f_msg 0 1 (str "a")); EvConn xA; EvRecv 0%nat].
Example C71_meets : exists s, reach xE x_owed s /\ newids x_owed <= 2 ^ 64 /\
  (exists m1 m2, owed xA 1%nat (s_log s) = [(xA, InAckReceipt 1 m1); (xA, InSuccess 9)] /\ gots 1%nat (s_log s) = [] /\
    ch_down (s_ch s 1%nat) = [InAckReceipt 1 m1; InSuccess 9] /\
    owed xA 0%nat (s_log s) = [(xA, InSuccess 9); (xA, InMessage m2)] /\ gots 0%nat (s_log s) = [InSuccess 9] /\ ch_down (s_ch s 0%nat) = [InMessage m2]) /\
  ch_client (s_ch s 0%nat) = true /\ ch_client (s_ch s 1%nat) = true.
Proof.
  assert (X : match run xE sys_init x_owed with Some s => (exists m1 m2, owed xA 1%nat (s_log s) = [(xA, InAckReceipt 1 m1); (xA, InSuccess 9)] /\ gots 1%nat (s_log s) = [] /\
    ch_down (s_ch s 1%nat) = [InAckReceipt 1 m1; InSuccess 9] /\
    owed xA 0%nat (s_log s) = [(xA, InSuccess 9); (xA, InMessage m2)] /\ gots 0%nat (s_log s) = [InSuccess 9] /\ ch_down (s_ch s 0%nat) = [InMessage m2]) /\
  ch_client (s_ch s 0%nat) = true /\ ch_client (s_ch s 1%nat) = true | None => False end).
  { vm_compute. split; [do 2 eexists; repeat split|split; reflexivity]. }
  unfold reach. destruct (run xE sys_init x_owed) as [s|]; [|contradiction]. exists s. split; [reflexivity|]. split; [vm_compute; discriminate|exact X].
Qed.
