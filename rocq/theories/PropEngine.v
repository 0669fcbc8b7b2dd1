(** C33-C37: bookkeeping of the engine, requests and their answers. *)
From Verif Require Import Bytes Errors Wire Proto Codec Address Message Client SpecKeys Engine SpecEngine EngineFacts EngineInv EngineReq EngineEv EngineConn EngineLog EngineView EngineEx SpecTurn TurnFacts PropMessage.
Open Scope N_scope.

(** * Kinds and keys *)
Lemma expects_asks o k : kind_of o = Some k -> asks o = expects k.
Proof. destruct o as [| | |[?|?]| | | | | |]; cbn; intros E; try discriminate; injection E as <-; reflexivity. Qed.
Lemma asks_kind o : asks o = true -> exists k, kind_of o = Some k /\ expects k = true.
Proof. destruct o as [| | |[?|?]| | | | | |]; cbn; intros E; try discriminate; eexists; split; reflexivity. Qed.
Lemma key_kind o : okey o <> None -> exists k, kind_of o = Some k.
Proof. destruct o as [| | |[?|?]| | | | | |]; cbn; intros E; try congruence; eexists; reflexivity. Qed.
Lemma flight_waiting l n k : in_flight l n k -> exists key, waiting_on l n key /\ forall o, kind_of o = Some k -> okey o = Some key.
Proof.
  intros (o & A & B & C & D & F). pose proof (okey_kind o k B) as K. eexists. split.
  - exists o. split; [exact A|]. split; [now rewrite (expects_asks o k B)|]. split; [exact K|auto].
  - intros o' B'. now rewrite (okey_kind o' k B').
Qed.
Lemma waiting_flight l n key : waiting_on l n key -> exists k o, in_flight l n k /\ requested l n o /\ kind_of o = Some k /\ okey o = Some key.
Proof.
  intros (o & A & B & C & D & F). destruct (asks_kind o B) as (k & K & X). exists k, o. split; [|auto]. exists o. auto.
Qed.
Lemma waiting_uniq s n m key : rinv s -> waiting_on (s_log s) n key -> waiting_on (s_log s) m key -> n = m.
Proof. intros R A B. apply (waiting_find s n key R) in A. apply (waiting_find s m key R) in B. congruence. Qed.

(** The history up to an entry of the log is the log of an earlier state, up to
    the entries of one transition. *)
Lemma log_trans E s e s' : trans E s e s' -> exists c, s_log s' = s_log s ++ c.
Proof. intros T. destruct (trans_log E s e s' T) as (c & H & _). eauto. Qed.
Lemma requested_uniq E h s n o o' : reach E h s -> requested (s_log s) n o -> requested (s_log s) n o' -> o = o'.
Proof.
  intros H [h1 A] [h2 B]. pose proof (v_r E s (reach_all E h s H)) as R. now destruct (r_uniq s R _ _ _ _ _ A B).
Qed.

(** * C33 *)
(** No internal lookup ever fails: not the client of a request, not the connection
    of a client, not the list of connections. *)
Theorem C33_no_internal_failure : forall E h s, reach E h s -> ~ In OFault (s_log s).
Proof. exact reach_no_fault. Qed.
Theorem C33_assigned_connection : forall E h s, reach E h s ->
  forall c, In c (s_clients s) -> exists k, get_conn (rc_addr c) (s_conns s) = Some k.
Proof.
  intros E h s H c Hc. pose proof (wf_addr E s (reach_wf E h s H) c Hc). destruct (get_conn (rc_addr c) (s_conns s)); [eauto|congruence].
Qed.
Theorem C33_distinct_ids : forall E h s, reach E h s -> newids h <= 2 ^ 64 -> NoDup (map rc_id (s_clients s)).
Proof.
  intros E h s H Hn. destruct (reach_ids E h s H) as [_ D]. exact (NoDup_app_l _ _ (proj1 (D Hn))).
Qed.
(** The configured broker's connection exists from the start to the end. *)
Theorem C33_has_connection : forall E h s, reach E h s -> s_phase s <> PStart -> s_phase s <> PStop ->
  exists k, get_conn (broker_address (e_cfg E)) (s_conns s) = Some k.
Proof.
  intros E h s H H1 H2. pose proof (wf_cfg E s (reach_wf E h s H) H1 H2). destruct (get_conn _ (s_conns s)); [eauto|congruence].
Qed.
(** In particular the engine's no-connection branch needs clients but no connection. *)
Theorem C33_clients_need_connections : forall E h s, reach E h s -> s_clients s <> [] -> s_conns s <> [].
Proof.
  intros E h s H Hc Hk. destruct (s_clients s) as [|c l] eqn:X; [congruence|].
  destruct (C33_assigned_connection E h s H c) as [k Hg]; [rewrite X; now left|]. rewrite Hk in Hg. discriminate.
Qed.
Print Assumptions C33_no_internal_failure.
Print Assumptions C33_assigned_connection.
Print Assumptions C33_distinct_ids.
Print Assumptions C33_has_connection.
Print Assumptions C33_clients_need_connections.
Example C33_meets : match run xE sys_init x_two_acks with
  | Some s => map rc_id (s_clients s) = [0; 1] /\ newids x_two_acks = 2 /\ s_phase s = PRun | None => False end.
Proof. vm_compute. auto. Qed.

(** * C34 *)
Theorem C34_at_most_once : forall E h s, reach E h s -> NoDup (settled (s_log s)).
Proof. intros E h s H. exact (r_stnd s (v_r E s (reach_all E h s H))). Qed.
(** A completed request was issued and taken, and was not completed before. The
    event it completes with was received from a broker, was taken by the engine
    while the request was in flight, and has the kind the request expects. (Of a
    lookup answer the engine clears the proxy flag in one case, [seen_as].) *)
Lemma fix_seen a i : seen_as a i (fix_lookup a i).
Proof.
  destruct i; try reflexivity. cbn. eexists. split; [reflexivity|]. cbn. repeat (split; [reflexivity|]).
  change (addr_string a) with (written_as a). destruct (bytes_eqb (lr_url r) (written_as a)) eqn:X.
  - apply bytes_eqb_spec in X. rewrite andb_false_r. split; [discriminate|]. intros [_ Y]. congruence.
  - rewrite andb_true_r. split; [|now intros [? _]]. intros Y. split; auto. intros Z. rewrite <- Z in X. assert (bytes_eqb (lr_url r) (lr_url r) = true) by now apply bytes_eqb_spec. congruence.
Qed.
Lemma seen_answers a i j k : seen_as a i j -> (answers j k <-> answers i k).
Proof. destruct i; cbn; try (intros ->; reflexivity). intros (r' & -> & _). destruct k; cbn; tauto. Qed.
Theorem C34_answer_of_its_kind : forall E h s l1 n ser i l2, reach E h s -> s_log s = l1 ++ OAnswer n ser i :: l2 ->
  exists l0 a i0 k, l1 = l0 ++ [OHandle a ser i0] /\ In (OArrive a ser i0) l0 /\ seen_as a i0 i /\
    in_flight l0 n k /\ answers i k.
Proof.
  intros E h s l1 n ser i l2 H El. pose proof (reach_entries E h s H) as En.
  destruct (En _ _ _ El) as (l0 & a & i0 & key & E1 & E2 & E3 & E4).
  subst l1. assert (El2 : s_log s = l0 ++ OHandle a ser i0 :: OAnswer n ser i :: l2) by (rewrite El, <- app_assoc; reflexivity).
  destruct (En _ _ _ El2) as (_ & Ha & _). destruct (waiting_flight l0 n key E4) as (k & o & F1 & F2 & F3 & F4).
  exists l0, a, i0, k. split; auto. split; auto. split; [subst i; apply fix_seen|]. split; auto.
  apply (C22_match_iff_answers o i k F3). congruence.
Qed.
(** And an event completes at most one request. *)
Lemma answering_app a b : answering (a ++ b) = answering a ++ answering b.
Proof. apply flat_map_app. Qed.
Lemma handled_in l a ser i : In (OHandle a ser i) l -> In ser (handled l).
Proof. intros H. apply in_flat_map. exists (OHandle a ser i). split; auto. now left. Qed.
Theorem C34_events_used_once : forall E h s, reach E h s -> NoDup (answering (s_log s)).
Proof.
  intros E h s H. pose proof (reach_entries E h s H) as En. pose proof (a_hnd s (v_a E s (reach_all E h s H))) as Nd.
  assert (A : forall l r, s_log s = l ++ r -> forall ser, In ser (answering l) -> In ser (handled l)).
  { intros l r El ser X. apply in_flat_map in X as (x & X & Y). destruct x; cbn in Y; try contradiction. destruct Y as [->|[]].
    apply in_split in X as (l1 & l2 & ->). rewrite <- app_assoc in El. destruct (En _ _ _ El) as (l0 & a & i0 & key & -> & _).
    rewrite !handled_app. apply in_app_iff. left. apply in_app_iff. right. now left. }
  assert (G : forall l r, s_log s = l ++ r -> NoDup (answering l)).
  { induction l as [|x l IH] using rev_ind; intros r El; [constructor|].
    rewrite <- app_assoc in El. specialize (IH _ El). rewrite answering_app.
    destruct x; cbn [answering flat_map app]; rewrite ?app_nil_r; auto.
    destruct (En _ _ _ El) as (l0 & a & i0 & key & E1 & _). subst l.
    apply NoDup_snoc; auto. intros X. rewrite answering_app, in_app_iff in X. cbn in X. destruct X as [X|[]].
    rewrite <- app_assoc in El. apply (A l0 _ El) in X. rewrite El, handled_app in Nd. cbn in Nd.
    apply NoDup_remove_2 in Nd. apply Nd, in_app_iff. auto. }
  apply (G _ []). symmetry. apply app_nil_r.
Qed.
(** But the event may have been received before the request was issued: an answer
    the broker sent unasked, still in the queue of its connection, is credited to
    a request issued later. *)
Lemma xwit_polled h (P : list obs -> Prop) : orderly xE sys_init h = true -> match xrun h with Some l => P l | None => False end ->
  exists s, reach xE h s /\ (forall rank, as_polled xE rank h) /\ P (s_log s).
Proof. intros O X. apply xwit in X as (s & R & X). exists s. split; [exact R|]. split; [now apply orderly_polled|exact X]. Qed.
Definition x_stale : list event :=
  x_reg2 ++ x_connect 0%nat ++ [EvNet xA (f_ack 0); EvIssue 0%nat (x_ack 0); EvClient 0%nat; EvConn xA].
Theorem C34_stale_answer_credited : exists E h s, reach E h s /\ (forall rank, as_polled E rank h) /\ exists a ser i c n o,
  nth_error (s_log s) 12 = Some (OArrive a ser i) /\ nth_error (s_log s) 13 = Some (OIssue c n o) /\
  nth_error (s_log s) 17 = Some (OAnswer n ser i) /\ written a (s_log s) = [(Some 0%nat, OConnect (mk_connect None None (Some a)))].
Proof.
  exists xE, x_stale. apply (xwit_polled x_stale (fun l => exists a ser i c n o,
    nth_error l 12 = Some (OArrive a ser i) /\ nth_error l 13 = Some (OIssue c n o) /\
    nth_error l 17 = Some (OAnswer n ser i) /\ written a l = [(Some 0%nat, OConnect (mk_connect None None (Some a)))])); [vm_compute; reflexivity|].
  vm_compute. do 6 eexists. split; [reflexivity|]. split; [reflexivity|]. split; reflexivity.
Qed.
Print Assumptions C34_at_most_once.
Print Assumptions C34_answer_of_its_kind.
Print Assumptions C34_events_used_once.
Print Assumptions C34_stale_answer_credited.
Example C34_meets : match xrun x_two_acks with Some l => settled l = [0; 1; 2; 3]%nat /\ answering l = [0; 1; 2]%nat | None => False end.
Proof. vm_compute. auto. Qed.

(** * C35 *)
(** No request is taken while another one of the same kind is in flight. *)
Definition no_collision (l : list obs) : Prop :=
  forall l1 n l2 m k o, l = l1 ++ OTake n :: l2 -> requested l1 n o -> kind_of o = Some k -> ~ in_flight l1 m k.
(** [reply ser]: the request the broker answers with event [ser]. It has received
    that request, on the same connection (a write that reports failure may
    have got it there, C74); the event is an answer to it; no request
    is answered twice. *)
Definition honest (l : list obs) (reply : nat -> nat) : Prop :=
  (forall l1 a ser i l2 k, l = l1 ++ OArrive a ser i :: l2 -> answers i k ->
     exists o ok, In (OWrite a (Some (reply ser)) o ok) l1 /\ kind_of o = Some k) /\
  (forall a i b j ser ser' k k', In (OArrive a ser i) l -> In (OArrive b ser' j) l -> answers i k -> answers j k' -> reply ser = reply ser' -> ser = ser').
Lemma formed_kind E l n q o : formed E l n q o -> kind_of o = kind_of q.
Proof. unfold formed. destruct q; try (intros ->; reflexivity). intros (d & m & -> & _). reflexivity. Qed.
Lemma settled_in n l : In n (settled l) -> (exists ser i, In (OAnswer n ser i) l) \/ In (OCancel n) l.
Proof.
  intros X. apply in_flat_map in X as (x & X & Y). destruct x; cbn in Y; try contradiction; destruct Y as [->|[]]; eauto.
Qed.
Theorem C35_answers_go_to_their_request : forall E h s reply, reach E h s ->
  no_collision (s_log s) -> honest (s_log s) reply ->
  forall n ser i, In (OAnswer n ser i) (s_log s) -> reply ser = n.
Proof.
  intros E h s reply H Hnc [H1 H2]. pose proof (reach_entries E h s H) as En.
  pose proof (v_r E s (reach_all E h s H)) as R.
  assert (G : forall len l1 n ser i l2, (length l1 < len)%nat -> s_log s = l1 ++ OAnswer n ser i :: l2 -> reply ser = n).
  { induction len as [|len IH]; intros l1 n ser i l2 Hl El; [lia|].
    destruct (C34_answer_of_its_kind E h s _ _ _ _ _ H El) as (l0 & a & i0 & k & -> & Ha & Ei & Hf & An).
    assert (El0 : s_log s = l0 ++ OHandle a ser i0 :: OAnswer n ser i :: l2) by (rewrite El, <- app_assoc; reflexivity).
    destruct (En _ _ _ El0) as (Hs & _). rewrite (seen_answers _ _ _ _ Ei) in An.
    apply in_split in Ha as (p1 & p2 & Ep).
    destruct (H1 p1 a ser i0 (p2 ++ OHandle a ser i0 :: OAnswer n ser i :: l2) k) as (o & okw & Ho & Hk); auto.
    { rewrite El0, Ep, <- app_assoc. reflexivity. }
    (* the request answered was taken before *)
    set (m := reply ser) in *. destruct (Nat.eq_dec m n) as [|Hne]; auto. exfalso.
    assert (Hm : exists q, requested l0 m q /\ kind_of q = Some k /\ In m (takes l0)).
    { apply in_split in Ho as (q1 & q2 & Eq). pose proof (En q1 (OWrite a (Some m) o okw) (q2 ++ OArrive a ser i0 :: p2 ++ OHandle a ser i0 :: OAnswer n ser i :: l2)) as X.
      rewrite El0, Ep, Eq, <- !app_assoc in X. specialize (X eq_refl). cbn in X.
      apply in_split in X as (r1 & r2 & Er). pose proof (En r1 (OForward m a o) (r2 ++ OWrite a (Some m) o okw :: q2 ++ OArrive a ser i0 :: p2 ++ OHandle a ser i0 :: OAnswer n ser i :: l2)) as X.
      rewrite El0, Ep, Eq, Er, <- !app_assoc in X. specialize (X eq_refl). cbn in X. destruct X as (_ & _ & X & _ & q & Q1 & Q2).
      exists q. rewrite Ep, Eq, Er, <- !app_assoc. split; [now apply requested_app|]. split; [rewrite <- (formed_kind _ _ _ _ _ Q2); exact Hk|].
      rewrite takes_app. apply in_app_iff. auto. }
    destruct Hm as (q & Q1 & Q2 & Q3).
    assert (Hx : expects k = true) by (destruct Hf as (? & _ & _ & ? & _); auto).
    destruct (in_dec Nat.eq_dec m (settled l0)) as [Hst|Hst].
    - apply settled_in in Hst as [(ser' & j & X)|X]; apply in_split in X as (r1 & r2 & Er).
      + assert (Er' : s_log s = r1 ++ OAnswer m ser' j :: r2 ++ OHandle a ser i0 :: OAnswer n ser i :: l2) by (rewrite El0, Er, <- app_assoc; reflexivity).
        assert (F : reply ser' = m).
        { apply (IH r1 m ser' j _) with (2 := Er'). rewrite Er, !app_length in Hl. cbn in Hl. lia. }
        destruct (C34_answer_of_its_kind E h s _ _ _ _ _ H Er') as (t0 & b & j0 & k' & -> & Hb & Ej & _ & An').
        rewrite (seen_answers _ _ _ _ Ej) in An'.
        assert (ser' = ser).
        { apply (H2 b j0 a i0 ser' ser k' k); auto.
          - rewrite Er'. rewrite <- app_assoc. apply in_app_iff. auto.
          - rewrite El0, Ep. apply in_app_iff. left. apply in_elt. }
        subst ser'. pose proof (C34_events_used_once E h s H) as Nd. rewrite Er' in Nd.
        rewrite answering_app in Nd. cbn [answering flat_map app] in Nd. apply NoDup_remove_2 in Nd. apply Nd.
        apply in_app_iff. right. fold (answering (r2 ++ OHandle a ser i0 :: OAnswer n ser i :: l2)). rewrite answering_app. apply in_app_iff. right. now left.
      + pose proof (En r1 (OCancel m) (r2 ++ OHandle a ser i0 :: OAnswer n ser i :: l2)) as X. rewrite El0, Er, <- app_assoc in X. specialize (X eq_refl).
        cbn in X. destruct X as [X|(t0 & n' & key & o' & -> & W & X1 & X2 & X3)].
        * apply Hs. rewrite Er. apply in_app_iff. auto.
        * apply waiting_flight in W as (k' & q' & F1 & F2 & F3 & F4).
          assert (K : kind_of o' = kind_of q') by (apply C23_key_iff_kind; congruence).
          apply (Hnc t0 n' (OCancel m :: r2 ++ OHandle a ser i0 :: OAnswer n ser i :: l2) m k' o'); auto; [|congruence].
          rewrite El0, Er, <- !app_assoc. reflexivity.
    - assert (Fm : in_flight l0 m k) by (exists q; auto).
      destruct (flight_waiting l0 m k Fm) as (key & Wm & K). destruct (En _ _ _ El0) as (_ & _ & _ & Hh).
      assert (Ki : ikey i0 = Some key) by (rewrite <- (K q Q2); symmetry; now apply (C22_match_iff_answers q i0 k Q2)).
      destruct (Hh m key Wm Ki) as (r & Er). injection Er as Er. congruence. }
  intros n ser i X. apply in_split in X as (l1 & l2 & El). exact (G _ l1 n ser i l2 (Nat.lt_succ_diag_r _) El).
Qed.
Print Assumptions C35_answers_go_to_their_request.

(** Two sends and a lookup in flight at once, answered in another order. *)
Definition x_send (seq : N) : outbound := OSend (SSingle (str "p") 0 seq (str "d")).
Definition x_ooo : list event :=
  x_reg2 ++ x_connect 0%nat ++
  [EvIssue 0%nat (x_send 0); EvIssue 0%nat (x_send 1); EvIssue 1%nat (OLookup 0 (str "t")); EvClient 0%nat; EvClient 0%nat; EvClient 1%nat;
   EvWrite xA 0 true; EvWrite xA 0 true; EvWrite xA 0 true; EvNet xA (f_receipt 0 1); EvNet xA (f_lookup 0 (str "u") 0); EvConn xA;
   EvNet xA (f_receipt 0 0); EvConn xA; EvConn xA].
Definition x_reply (ser : nat) : nat := match ser with 0 => 0 | 1 => 2 | 2 => 3 | _ => 1 end%nat.
Ltac splits H :=
  match type of H with
  | [] = _ => exfalso; clear -H; match type of H with _ = ?l ++ _ => destruct l; discriminate H | _ => discriminate H end
  | _ = ?l1 ++ _ => let x := fresh "x" in destruct l1 as [|x l1]; cbn [app] in H;
      [try discriminate H; injection H; clear H; intros; subst|injection H; clear H; intros H ?; subst x; splits H]
  end.
Ltac honest_tac := split;
  [ let El := fresh "El" in let An := fresh "An" in let k := fresh "k" in
    intros ? ? ? ? ? k El An; splits El; destruct k; cbn in An; try contradiction; subst; eexists; exists true; (split; [cbn; tauto|reflexivity])
  | let Ha := fresh "Ha" in let Hb := fresh "Hb" in intros ? ? ? ? ? ? ? ? Ha Hb _ _; cbn in Ha, Hb;
      repeat match goal with H : _ \/ _ |- _ => destruct H as [H|H]; try discriminate H | H : False |- _ => destruct H end;
      repeat match goal with H : OArrive _ _ _ = OArrive _ _ _ |- _ => injection H; clear H; intros; subst end; vm_compute; intros; try reflexivity; discriminate ].
Example C35_meets : match xrun x_ooo with
  | Some l => no_collision l /\ honest l x_reply /\ settled l = [0; 2; 3; 1]%nat
  | None => False end.
Proof.
  destruct (xrun x_ooo) as [l|] eqn:X; vm_compute in X; [|discriminate]. injection X as <-.
  split; [|split; [|reflexivity]].
  - intros l1 n l2 m k o El [h1 Hr] Hk (o' & [h2 Q1] & Q2 & Q3 & Q4 & Q5). splits El.
    all: cbn in Hr, Q1; vm_compute in Q4, Q5.
    all: repeat match goal with H : _ \/ _ |- _ => destruct H as [H|H]; try discriminate H | H : False |- _ => destruct H end; try lia.
    all: repeat match goal with H : OIssue _ _ _ = OIssue _ _ _ |- _ => injection H; clear H; intros; subst end; try lia; cbn in Hk, Q2; try congruence; try tauto.
  - honest_tac.
Qed.

(** * C36 *)
Theorem C36_overwrite : forall E h s l1 n l2 o k m, reach E h s -> s_log s = l1 ++ OTake n :: l2 ->
  requested l1 n o -> kind_of o = Some k -> in_flight l1 m k -> exists r, l2 = OCancel m :: r.
Proof.
  intros E h s l1 n l2 o k m H El Hr Hk Hf. destruct (reach_entries E h s H _ _ _ El) as (_ & _ & _ & X).
  destruct (flight_waiting l1 m k Hf) as (key & W & K). apply (X m key o W Hr); auto.
  rewrite (expects_asks o k Hk). destruct Hf as (? & _ & _ & ? & _); auto.
Qed.
Theorem C36_answer_goes_to_the_one_in_flight : forall E h s l1 a ser i l2 n k, reach E h s -> s_log s = l1 ++ OHandle a ser i :: l2 ->
  in_flight l1 n k -> answers i k -> exists j r, l2 = OAnswer n ser j :: r /\ seen_as a i j.
Proof.
  intros E h s l1 a ser i l2 n k H El Hf An. exists (fix_lookup a i). enough (exists r, l2 = OAnswer n ser (fix_lookup a i) :: r) as [r R] by (exists r; split; [exact R|apply fix_seen]). destruct (reach_entries E h s H _ _ _ El) as (_ & _ & _ & X).
  destruct Hf as (o & A & B & C & D). destruct (flight_waiting l1 n k) as (key & W & K); [now exists o|].
  apply (X n key W). rewrite <- (K o B). symmetry. now apply (C22_match_iff_answers o i k B).
Qed.
Theorem C36_one_per_kind : forall E h s n m k, reach E h s -> in_flight (s_log s) n k -> in_flight (s_log s) m k -> n = m.
Proof.
  intros E h s n m k H A B. destruct (flight_waiting _ _ _ A) as (key & W & K), (flight_waiting _ _ _ B) as (key' & W' & K').
  destruct A as (o & _ & A & _). assert (key = key') by (pose proof (K o A); pose proof (K' o A); congruence). subst key'.
  exact (waiting_uniq s n m key (v_r E s (reach_all E h s H)) W W').
Qed.
(** So with a broker that answers every request properly, the first of two acks of
    different clients fails although it was answered, and the second completes with
    the answer to the first. Likewise lookups, and sends of two producers at the
    same sequence number. *)
Definition crossed (l : list obs) : Prop := exists reply h1 h2 m n o o' ser i, honest l reply /\ h1 <> h2 /\
  In (OIssue h1 m o) l /\ In (OIssue h2 n o') l /\ reply ser = m /\ m <> n /\ In (OCancel m) l /\ In (OAnswer n ser i) l.
Theorem C36_two_acks : exists E h s, reach E h s /\ (forall rank, as_polled E rank h) /\ crossed (s_log s).
Proof.
  exists xE, x_two_acks. apply (xwit_polled x_two_acks crossed); [vm_compute; reflexivity|].
  destruct (xrun x_two_acks) as [l|] eqn:X; vm_compute in X; [|discriminate]. injection X as <-.
  exists (fun ser => ser), 0%nat, 1%nat, 2%nat, 3%nat, (x_ack 0), (x_ack 1), 2%nat, (InAckReceipt 0 0).
  split; [honest_tac|]. split; [discriminate|]. split; [cbn; tauto|]. split; [cbn; tauto|]. split; [reflexivity|]. split; [discriminate|].
  split; cbn; tauto.
Qed.
Definition x_cross (o o' : outbound) (f : item) : list event :=
  x_reg2 ++ x_connect 0%nat ++ [EvIssue 0%nat o; EvIssue 1%nat o'; EvClient 0%nat; EvClient 1%nat; EvWrite xA 0 true; EvWrite xA 0 true; EvNet xA f; EvConn xA].
Theorem C36_two_lookups : exists E h s, reach E h s /\ (forall rank, as_polled E rank h) /\ crossed (s_log s).
Proof.
  exists xE, (x_cross (OLookup 0 (str "t")) (OLookup 0 (str "t'")) (f_lookup 0 (str "u") 0)). apply (xwit_polled _ crossed); [vm_compute; reflexivity|].
  destruct (xrun _) as [l|] eqn:X; vm_compute in X; [|discriminate]. injection X as <-.
  exists (fun ser => ser), 0%nat, 1%nat, 1%nat, 2%nat, (OLookup 0 (str "t")), (OLookup 0 (str "t'")), 1%nat, (InLookup (mk_lookup 0 (str "u") [] LConnect false false)).
  split; [honest_tac|]. split; [discriminate|]. split; [cbn; tauto|]. split; [cbn; tauto|]. split; [reflexivity|]. split; [discriminate|].
  split; cbn; tauto.
Qed.
Theorem C36_two_producers : exists E h s, reach E h s /\ (forall rank, as_polled E rank h) /\ crossed (s_log s).
Proof.
  exists xE, (x_cross (OSend (SSingle (str "p") 0 7 (str "d"))) (OSend (SSingle (str "q") 1 7 (str "e"))) (f_receipt 0 7)). apply (xwit_polled _ crossed); [vm_compute; reflexivity|].
  destruct (xrun _) as [l|] eqn:X; vm_compute in X; [|discriminate]. injection X as <-.
  exists (fun ser => ser), 0%nat, 1%nat, 1%nat, 2%nat, (OSend (SSingle (str "p") 0 7 (str "d"))), (OSend (SSingle (str "q") 1 7 (str "e"))), 1%nat, (InReceipt 0 7 mid56).
  split; [honest_tac|]. split; [discriminate|]. split; [cbn; tauto|]. split; [cbn; tauto|]. split; [reflexivity|]. split; [discriminate|].
  split; cbn; tauto.
Qed.
Print Assumptions C36_overwrite.
Print Assumptions C36_answer_goes_to_the_one_in_flight.
Print Assumptions C36_one_per_kind.
Print Assumptions C36_two_acks.
Print Assumptions C36_two_lookups.
Print Assumptions C36_two_producers.

(** * C37 *)
(** A connect is cancelled only by the end of the engine. *)
Lemma kind_connect o : kind_of o = Some KConnect -> exists c, o = OConnect c.
Proof. destruct o as [| | |[?|?]| | | | | |]; cbn; intros E; try discriminate. eauto. Qed.
Lemma connect_waiting l n c : requested l n (OConnect c) -> In n (takes l) -> ~ In n (settled l) -> waiting_on l n kconnect.
Proof. intros A B C. exists (OConnect c). auto. Qed.
Theorem C37_connects_never_cancelled : forall E h s l1 n c l2, reach E h s -> s_log s = l1 ++ OCancel n :: l2 ->
  requested (s_log s) n (OConnect c) -> In OStop l1.
Proof.
  intros E h s l1 n c l2 H El Hr. pose proof (reach_entries E h s H) as En.
  destruct (En _ _ _ El) as [X|(l0 & m & key & o & -> & W & X & X1 & X2)]; auto. exfalso.
  assert (El0 : s_log s = l0 ++ OTake m :: OCancel n :: l2) by (rewrite El, <- app_assoc; reflexivity).
  destruct (En _ _ _ El0) as (_ & _ & Hn & _). apply (Hn n).
  destruct W as (q & W1 & W2 & W3). assert (q = OConnect c).
  { apply (requested_uniq E h s n _ _ H); auto. rewrite El0. now apply requested_app. }
  subst q. exists (OConnect c). destruct W3 as (_ & W3). split; [auto|]. split; [reflexivity|]. split; [reflexivity|auto].
Qed.
(** The engine takes nothing from a client before the last connect has completed. *)
Theorem C37_one_connect_at_a_time : forall E h s l1 n c l2 m l3, reach E h s -> s_log s = l1 ++ OTake n :: l2 ++ OTake m :: l3 ->
  requested (s_log s) n (OConnect c) -> In n (settled (l1 ++ OTake n :: l2)).
Proof.
  intros E h s l1 n c l2 m l3 H El Hr. pose proof (reach_entries E h s H) as En.
  destruct (in_dec Nat.eq_dec n (settled (l1 ++ OTake n :: l2))) as [|Hn]; auto. exfalso.
  assert (El0 : s_log s = (l1 ++ OTake n :: l2) ++ OTake m :: l3) by (rewrite El, <- app_assoc; reflexivity).
  destruct (En _ _ _ El0) as (_ & _ & X & _). apply (X n). destruct (En _ _ _ El) as (_ & (q & Hq) & _).
  assert (q = OConnect c).
  { apply (requested_uniq E h s n _ _ H); auto. rewrite El. now apply requested_app. }
  subst q. apply (connect_waiting _ n c); auto; [now apply requested_app|]. rewrite takes_app. apply in_app_iff. right. now left.
Qed.
Print Assumptions C37_connects_never_cancelled.
Print Assumptions C37_one_connect_at_a_time.
(** Two connects one after the other; a third is cut off by the loss of the connection. *)
Example C37_meets : match xrun (x_reg2 ++ x_connect 0%nat ++ x_connect 1%nat ++
    [EvIssue 0%nat (OConnect (mk_connect None None None)); EvClient 0%nat; EvWrite xA 0 true; EvNet xA IEnd; EvAnswered]) with
  | Some l => takes l = [0; 1; 2]%nat /\ settled l = [0; 1; 2]%nat /\ nth_error l 23 = Some OStop /\ nth_error l 24 = Some (OCancel 2%nat)
  | None => False end.
Proof. vm_compute. auto. Qed.
