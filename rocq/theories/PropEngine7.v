(** C58: progress. A request that is queued can be transmitted, and a connect can
    complete, with the cooperation only of the engine, of the connection it goes to
    and of the broker: of the other clients only those registered before it matter. *)
From Verif Require Import Bytes Errors Wire Proto Codec Address Message SpecMessage Client SpecKeys MessageFacts Engine SpecEngine SpecEngine2 EngineFacts EngineInv EngineReq EngineEv EngineConn EngineLog EngineView EngineQueue EngineRoute EngineGate EngineLife EngineHang EngineOrigin EngineEx SpecTurn TurnFacts PropMessage PropEngine PropEngine2 PropEngine3 PropEngine6.
Open Scope N_scope.

(** The registered client behind a channel. *)
Lemma client_of E h s c id : reach E h s -> newids h <= 2 ^ 64 -> s_phase s <> PStop -> In (c, id) (registered (s_log s)) ->
  exists x, rc_h x = c /\ rc_id x = id /\ find (fun y => (rc_h y =? c)%nat) (s_clients s) = Some x /\ get_client id (s_clients s) = Some x /\
    v_home (look (broker_address (e_cfg E)) c (s_log s)) = Some (rc_addr x).
Proof.
  intros H Hn P R. rewrite (g_reg s (reach_gate E h s H)) in R. apply in_map_iff in R as (x & Ex & Hx). injection Ex as <- <-.
  exists x. split; auto. split; auto. pose proof (reach_all E h s H) as V.
  pose proof (h_nodup s (v_h E s V)) as N. apply NoDup_app_l in N.
  destruct (reach_ids E h s H) as [_ J]. destruct (J Hn) as [J' _]. unfold ids in J'. apply NoDup_app_l in J'.
  split; [|split].
  - clear - Hx N. induction (s_clients s) as [|y l IH]; [destruct Hx|]. cbn [find]. inversion N as [|? ? N1 N2]; subst.
    destruct (rc_h y =? rc_h x)%nat eqn:X.
    + apply Nat.eqb_eq in X. destruct Hx as [->|Hx]; auto. exfalso. apply N1. rewrite X. now apply in_map.
    + destruct Hx as [->|Hx]; [rewrite Nat.eqb_refl in X; discriminate|]. auto.
  - clear - Hx J'. induction (s_clients s) as [|y l IH]; [destruct Hx|]. cbn [get_client]. inversion J' as [|? ? N1 N2]; subst.
    destruct (rc_id y =? rc_id x) eqn:X.
    + apply N.eqb_eq in X. destruct Hx as [->|Hx]; auto. exfalso. apply N1. rewrite X. now apply in_map.
    + destruct Hx as [->|Hx]; [rewrite N.eqb_refl in X; discriminate|]. auto.
  - exact (w_home E s (reach_views E h s H Hn) P x Hx).
Qed.

Definition item (x : nat * outbound) : citem := mk_citem (Some (fst x)) (snd x) false.
(** Connections that live stay alive; what is added to their queues can be sent. *)
Definition grows (s s' : sys) : Prop := forall b k, get_conn b (s_conns s) = Some k -> k_alive k = true ->
  exists k' l, get_conn b (s_conns s') = Some k' /\ k_alive k' = true /\ k_e2n k' = k_e2n k ++ map item l /\ forall x, In x l -> sendable_request (snd x).
Lemma grows_refl s : grows s s.
Proof. intros b k K A. exists k, []. rewrite app_nil_r. conjs; auto. intros x []. Qed.
Lemma grows_trans s t u : grows s t -> grows t u -> grows s u.
Proof.
  intros X Y b k K A. destruct (X b k K A) as (k1 & l1 & K1 & A1 & E1 & F1). destruct (Y b k1 K1 A1) as (k2 & l2 & K2 & A2 & E2 & F2).
  exists k2, (l1 ++ l2). conjs; auto; [now rewrite E2, E1, map_app, app_assoc|]. intros x Hx. apply in_app_iff in Hx as [Hx|Hx]; auto.
Qed.
Lemma before_out c l : ~ In c (before c l).
Proof. induction l as [|d l IH]; [intros []|]. cbn [before]. destruct (Nat.eqb_spec d c); [intros []|]. intros [X|X]; auto. Qed.
Lemma before_split c d l : NoDup l -> forall done rest, before c l = done ++ d :: rest -> before d l = done.
Proof.
  induction l as [|x l IH]; intros N done rest X; [destruct done; discriminate|]. inversion N as [|? ? N1 N2]; subst. cbn [before] in *.
  destruct (Nat.eqb_spec x c) as [->|Nx]; [destruct done; discriminate|]. destruct done as [|y done]; injection X as -> X; [now rewrite Nat.eqb_refl|].
  destruct (Nat.eqb_spec y d) as [->|_]; [|f_equal; eauto]. exfalso. apply N1.
  assert (Z : In d (before c l)) by (rewrite X; apply in_app_iff; right; now left). clear - Z. induction l as [|x l IH]; [destruct Z|]. cbn [before] in Z. destruct (x =? c)%nat; [destruct Z|]. destruct Z as [->|Z]; [now left|right; auto].
Qed.
Lemma clients_at E h s c : reach E h s -> clients_before c (s_log s) = before c (map rc_h (s_clients s)).
Proof. intros H. unfold clients_before. rewrite (g_reg s (reach_gate E h s H)). unfold pairs. rewrite map_map. reflexivity. Qed.
Lemma handles_nodup E h s : reach E h s -> NoDup (map rc_h (s_clients s)).
Proof. intros H. pose proof (h_nodup s (v_h E s (reach_all E h s H))) as N. now apply NoDup_app_l in N. Qed.

Lemma take_send E s c x n o q k : s_phase s = PRun -> find (fun y => (rc_h y =? c)%nat) (s_clients s) = Some x -> ch_up (s_ch s c) = (n, o) :: q ->
  is_connect o = false -> get_client (rc_id x) (s_clients s) = Some x -> get_conn (rc_addr x) (s_conns s) = Some k -> k_alive k = true ->
  exists s', step E s (EvClient c) = Some s' /\ s_phase s' = PRun /\ s_clients s' = s_clients s /\ ch_up (s_ch s' c) = q /\ ch_client (s_ch s' c) = ch_client (s_ch s c) /\
    (forall d, d <> c -> s_ch s' d = s_ch s d) /\ (forall b, b <> rc_addr x -> get_conn b (s_conns s') = get_conn b (s_conns s)) /\
    get_conn (rc_addr x) (s_conns s') = Some (mk_conn (k_e2n k ++ [item (n, o)]) (k_n2e k) (k_res k) true (k_errored k)).
Proof.
  intros P F U O G K A. cbn [step]. rewrite P, F, U. destruct (s_conns s) as [|p l] eqn:Cs; [discriminate|]. rewrite <- Cs in *. clear p l Cs.
  destruct (if asks o then r_put (okey o) n (s_res s) else (s_res s, [])) as [res dropped].
  eexists. split; [reflexivity|]. fold (taken s c q n res dropped).
  assert (handle_outbound E (taken s c q n res dropped) (rc_id x) n o = forward (taken s c q n res dropped) (rc_id x) n o) as -> by (destruct o; try discriminate; reflexivity).
  unfold forward. change (s_clients (taken s c q n res dropped)) with (s_clients s). rewrite G. unfold send_conn.
  change (s_conns (taken s c q n res dropped)) with (s_conns s). rewrite K, A.
  replace (match o with OConnect _ => true | _ => false end) with false by (destruct o; try reflexivity; discriminate).
  pj. split; auto. split; auto. split; [now rewrite set_ch_same|]. split; [now rewrite set_ch_same|]. split; [intros d D; now rewrite set_ch_other|].
  split; [intros b B; rewrite get_set_other by congruence; reflexivity|]. now rewrite get_set_same.
Qed.
(** The engine takes what client [c] has queued, after those before it. *)
Lemma take_sends E rank c x : forall pre h s k post, reach E h s -> as_polled E rank h -> (forall d, In d (before c (map rc_h (s_clients s))) -> idle_client d s) ->
  s_phase s = PRun -> find (fun y => (rc_h y =? c)%nat) (s_clients s) = Some x -> ch_up (s_ch s c) = pre ++ post ->
  (forall n o, In (n, o) pre -> is_connect o = false /\ sendable_request o) -> get_client (rc_id x) (s_clients s) = Some x -> get_conn (rc_addr x) (s_conns s) = Some k -> k_alive k = true ->
  exists s' k', run E s (repeat (EvClient c) (length pre)) = Some s' /\ as_polled E rank (h ++ repeat (EvClient c) (length pre)) /\
    s_phase s' = PRun /\ s_clients s' = s_clients s /\ ch_up (s_ch s' c) = post /\ ch_client (s_ch s' c) = ch_client (s_ch s c) /\ (forall d, d <> c -> s_ch s' d = s_ch s d) /\ grows s s' /\
    get_conn (rc_addr x) (s_conns s') = Some k' /\ k_alive k' = true /\ k_e2n k' = k_e2n k ++ map item pre.
Proof.
  induction pre as [|[n o] pre IH]; intros h s k post H Po Id P F U O G K A.
  - exists s, k. cbn [length repeat run map]. rewrite !app_nil_r. conjs; auto. apply grows_refl.
  - destruct (O n o (or_introl eq_refl)) as [O1 O2].
    destruct (take_send E s c x n o (pre ++ post) k P F U O1 G K A) as (s1 & S & P1 & C1 & U1 & Cc & Ot & Oc & K1).
    assert (H1 : reach E (h ++ [EvClient c]) s1) by (unfold reach in *; rewrite run_app, H; cbn [run]; now rewrite S).
    assert (Po1 : as_polled E rank (h ++ [EvClient c])).
    { apply (polled_snoc E rank h _ s Po H). intros d D. apply Id. now rewrite <- (clients_at E h s c H). }
    rewrite <- C1 in F, G.
    destruct (IH (h ++ [EvClient c]) s1 (mk_conn (k_e2n k ++ [item (n, o)]) (k_n2e k) (k_res k) true (k_errored k)) post H1 Po1) as (s2 & k2 & R & Po2 & P2 & C2 & U2 & Cc2 & Ot2 & Gr & K2 & A2 & E2); auto.
    { intros d D. rewrite C1 in D. assert (d <> c) by (intros ->; exact (before_out _ _ D)). unfold idle_client. rewrite Ot by auto. now apply Id. }
    { intros m o' Hm. apply (O m). now right. }
    exists s2, k2. cbn [length repeat run]. rewrite S. rewrite <- app_assoc in Po2. conjs; auto; try congruence.
    + intros d D. now rewrite Ot2, Ot.
    + apply grows_trans with s1; [|exact Gr]. intros b kb Kb Ab. destruct (baddr_dec b (rc_addr x)) as [->|Nb].
      * rewrite K in Kb. injection Kb as <-. eexists. exists [(n, o)]. rewrite K1. conjs; auto. intros y [<-|[]]. exact O2.
      * exists kb, []. rewrite Oc by auto. rewrite app_nil_r. conjs; auto. intros y [].
    + rewrite E2. cbn [k_e2n map]. now rewrite <- app_assoc.
Qed.
(** All that is queued by the clients [rest], in turn. *)
Definition served (s : sys) (ds : list nat) : list event := flat_map (fun d => repeat (EvClient d) (length (ch_up (s_ch s d)))) ds.
Definition servable (E : env) (s : sys) (d : nat) : Prop := ch_client (s_ch s d) = true /\ forall m q, In (m, q) (ch_up (s_ch s d)) -> kind_of q <> Some KConnect /\ sendable_request q /\
  exists b k, v_home (look (broker_address (e_cfg E)) d (s_log s)) = Some b /\ get_conn b (s_conns s) = Some k /\ k_alive k = true.
Lemma in_before c d l : In d (before c l) -> In d l.
Proof. induction l as [|x l IH]; [auto|]. cbn [before]. destruct (x =? c)%nat; [intros []|]. intros [->|X]; [now left|right; auto]. Qed.
Lemma serve E rank c ids : forall rest done h s, reach E h s -> as_polled E rank h -> s_phase s = PRun ->
  map rc_h (s_clients s) = ids -> before c ids = done ++ rest -> (forall d, In d done -> idle_client d s) ->
  (forall d, In d rest -> ch_client (s_ch s d) = true /\ exists x, find (fun y => (rc_h y =? d)%nat) (s_clients s) = Some x /\ get_client (rc_id x) (s_clients s) = Some x /\
     forall m q, In (m, q) (ch_up (s_ch s d)) -> is_connect q = false /\ sendable_request q /\ exists k, get_conn (rc_addr x) (s_conns s) = Some k /\ k_alive k = true) ->
  exists s', run E s (served s rest) = Some s' /\ as_polled E rank (h ++ served s rest) /\ s_phase s' = PRun /\ s_clients s' = s_clients s /\
    (forall d, In d (before c ids) -> idle_client d s') /\ (forall d, ~ In d rest -> s_ch s' d = s_ch s d) /\ grows s s'.
Proof.
  induction rest as [|d rest IH]; intros done h s H Po P Ei Eb Id Sv.
  - exists s. cbn [served flat_map run]. rewrite !app_nil_r in *. conjs; auto; [now rewrite Eb|apply grows_refl].
  - assert (N : NoDup ids) by (rewrite <- Ei; exact (handles_nodup E h s H)). pose proof (before_split c d ids N done rest Eb) as Bd.
    destruct (Sv d (or_introl eq_refl)) as (Cd & x & Fx & Gx & Qx).
    assert (Y : exists s1, run E s (repeat (EvClient d) (length (ch_up (s_ch s d)))) = Some s1 /\ as_polled E rank (h ++ repeat (EvClient d) (length (ch_up (s_ch s d)))) /\
      s_phase s1 = PRun /\ s_clients s1 = s_clients s /\ idle_client d s1 /\ (forall e, e <> d -> s_ch s1 e = s_ch s e) /\ grows s s1).
    { destruct (ch_up (s_ch s d)) as [|[m q] r] eqn:U.
      - exists s. cbn [length repeat run]. rewrite app_nil_r. conjs; auto; [split; auto|apply grows_refl].
      - destruct (Qx m q (or_introl eq_refl)) as (_ & _ & k & K & A).
        destruct (take_sends E rank d x ((m, q) :: r) h s k []) as (s1 & k1 & R1 & Po1 & P1 & C1 & U1 & Cc & Ot & Gr & _); auto.
        + intros e De. apply Id. rewrite Ei, Bd in De. exact De.
        + now rewrite app_nil_r.
        + intros m' q' Hm. destruct (Qx m' q' Hm) as (X1 & X2 & _). auto.
        + exists s1. conjs; auto. split; [exact U1|congruence]. }
    destruct Y as (s1 & R1 & Po1 & P1 & C1 & Id1 & Ot1 & Gr1).
    assert (H1 : reach E (h ++ repeat (EvClient d) (length (ch_up (s_ch s d)))) s1) by (unfold reach in *; rewrite run_app, H; exact R1).
    assert (Nr : NoDup (before c ids)).
    { clear - N. induction ids as [|y l IH]; [constructor|]. inversion N as [|? ? N1 N2]; subst. cbn [before]. destruct (y =? c)%nat; [constructor|]. constructor; [|auto]. intros X. apply N1. now apply in_before in X. }
    rewrite Eb in Nr. pose proof (NoDup_remove_2 _ _ _ Nr) as Nd.
    destruct (IH (done ++ [d]) _ s1 H1 Po1 P1) as (s2 & R2 & Po2 & P2 & C2 & Id2 & Ot2 & Gr2).
    + now rewrite C1.
    + rewrite <- app_assoc. exact Eb.
    + intros e He. apply in_app_iff in He as [He|[<-|[]]]; [|exact Id1]. unfold idle_client. rewrite Ot1; [now apply Id|]. intros ->. apply Nd, in_app_iff. auto.
    + intros e He. assert (e <> d) by (intros ->; apply Nd, in_app_iff; auto). rewrite Ot1, C1 by auto. destruct (Sv e (or_intror He)) as (Ce & y & Fy & Gy & Qy). split; auto. exists y. conjs; auto.
      intros m q Hm. destruct (Qy m q Hm) as (X1 & X2 & k & K & A). conjs; auto. destruct (Gr1 _ k K A) as (k' & l & K' & A' & _). eauto.
    + assert (Es : served s1 rest = served s rest).
      { assert (Nr' : ~ In d rest) by (intros X; apply Nd, in_app_iff; auto). unfold served. clear - Ot1 Nr'. induction rest as [|e r IH]; [reflexivity|]. cbn [flat_map]. rewrite Ot1 by (intros ->; apply Nr'; now left). f_equal. apply IH. intros X. apply Nr'. now right. }
      rewrite Es in *. exists s2. cbn [served flat_map]. fold (served s rest). rewrite run_app, R1. rewrite app_assoc. conjs; auto; try congruence.
      * intros e He. rewrite Ot2, Ot1; auto; [intros ->; apply He; now left|intros X; apply He; now right].
      * now apply grows_trans with s1.
Qed.
(** Request [n], queued by client [c] behind the requests [pre], none of them a
    connect. The engine serves the clients registered before [c] first; if none of them
    has been dropped or has a connect queued, it can serve them and then bring the
    request onto the wire, with the connection but nobody else. *)
Theorem C58_request_can_be_written : forall E rank h s c id a k now pre n o post, reach E h s -> as_polled E rank h -> newids h <= 2 ^ 64 -> s_phase s = PRun ->
  In (c, id) (registered (s_log s)) -> v_home (look (broker_address (e_cfg E)) c (s_log s)) = Some a ->
  get_conn a (s_conns s) = Some k -> k_alive k = true -> now < 2 ^ 64 ->
  ch_up (s_ch s c) = pre ++ (n, o) :: post ->
  (forall m q, In (m, q) (pre ++ [(n, o)]) -> kind_of q <> Some KConnect /\ sendable_request q) ->
  (forall m q, In (m, q) (unwritten a (s_log s)) -> sendable_request q) ->
  (forall d, In d (clients_before c (s_log s)) -> servable E s d) ->
  exists m s', let h2 := served s (clients_before c (s_log s)) ++ repeat (EvClient c) (length pre + 1) ++ repeat (EvWrite a now true) m in
    run E s h2 = Some s' /\ as_polled E rank (h ++ h2) /\ In (OWrite a (Some n) o true) (s_log s').
Proof.
  intros E rank h s c id a k now pre n o post H Po Hn P R Hh K A Hnow U O F Sv.
  destruct (client_of E h s c id H Hn) as (x & Xc & Xi & Fi & G & Home); auto; [rewrite P; discriminate|]. rewrite Hh in Home. injection Home as ->. subst id.
  assert (Nc : forall q, kind_of q <> Some KConnect -> is_connect q = false) by (intros q X; destruct q; try reflexivity; exfalso; apply X; reflexivity).
  rewrite (clients_at E h s c H) in *.
  destruct (serve E rank c _ (before c (map rc_h (s_clients s))) [] h s H Po P eq_refl eq_refl) as (s0 & R0 & Po0 & P0 & C0 & Id0 & Ot0 & Gr0).
  { intros d []. }
  { intros d D. destruct (Sv d D) as [S1 S2]. split; auto. apply in_before in D.
    assert (exists i, In (d, i) (registered (s_log s))) as (i & Di).
    { rewrite (g_reg s (reach_gate E h s H)). unfold pairs. apply in_map_iff in D as (y & <- & Y). exists (rc_id y). apply in_map_iff. eauto. }
    destruct (client_of E h s d i H Hn) as (y & Yc & Yi & Fy & Gy & Hy); auto; [rewrite P; discriminate|]. exists y. subst i. conjs; auto.
    intros m q Hm. destruct (S2 m q Hm) as (X1 & X2 & b & kb & X3 & X4 & X5). rewrite X3 in Hy. injection Hy as ->. conjs; eauto. }
  set (H0 := served s (before c (map rc_h (s_clients s)))) in *.
  assert (Re0 : reach E (h ++ H0) s0) by (unfold reach in *; rewrite run_app, H; exact R0).
  assert (U0 : ch_up (s_ch s0 c) = (pre ++ [(n, o)]) ++ post) by (rewrite Ot0, U, <- app_assoc by apply before_out; reflexivity).
  destruct (Gr0 _ k K A) as (k0 & l0 & K0 & A0 & E0 & F0). rewrite <- C0 in Fi, G.
  destruct (take_sends E rank c x (pre ++ [(n, o)]) (h ++ H0) s0 k0 post Re0 Po0) as (s1 & k1 & R1 & Po1 & P1 & C1 & U1 & _ & _ & _ & K1 & A1 & E1); auto.
  - intros d D. rewrite C0 in D. auto.
  - intros m q Hm. destruct (O m q Hm) as [X Y]. auto.
  - destruct (unwritten_items E h s (rc_addr x) k H K A) as [_ Un]. rewrite Un in F.
    destruct (flush E (rc_addr x) now Hnow (k_e2n k1) s1 k1 K1 A1 eq_refl) as (s2 & k2 & R2 & L2 & _).
    + intros y Hy. rewrite E1, E0 in Hy. rewrite !in_app_iff in Hy. destruct Hy as [[Hy|Hy]|Hy].
      * apply (F (ci_src y)). unfold outs. apply in_map_iff. eauto.
      * apply in_map_iff in Hy as (z & <- & Hy). exact (F0 z Hy).
      * apply in_map_iff in Hy as ([m q] & <- & Hy). apply (O m q Hy).
    + rewrite app_length in R1, Po1. cbn [length] in R1, Po1. exists (length (k_e2n k1)), s2. cbv zeta. rewrite run_app, R0, run_app, R1, R2. split; [reflexivity|]. split.
      * rewrite !app_assoc. rewrite <- app_assoc in Po1. rewrite app_assoc in Po1. apply (polled_app E rank _ _ s1 Po1).
        { unfold reach in *. rewrite run_app, Re0. exact R1. }
        { intros g1 e g2 t X _. assert (Y : In e (repeat (EvWrite (rc_addr x) now true) (length (k_e2n k1)))) by (rewrite X; apply in_app_iff; right; now left). apply repeat_spec in Y. subst e. exact I. }
        { now rewrite R2. }
      * rewrite L2, E1. apply in_app_iff. right. apply in_map_iff. exists (item (n, o)). split; [reflexivity|].
        apply in_app_iff. right. apply in_map. apply in_app_iff. right. now left.
Qed.
Print Assumptions C58_request_can_be_written.

(** A connection writes what is queued for it while the engine waits for the answer
    to the connect that is last. *)
Lemma wake_other ns w p a n : p = PConn a n Waiting -> ~ In n ns -> wake_ph ns w p = p.
Proof. intros -> H. destruct (wake_ph_cases ns w (PConn a n Waiting)) as [X|(b & m & X & Y & _)]; auto. injection X as <- <-. contradiction. Qed.
Lemma flush_connect E a n now x : now < 2 ^ 64 -> ci_src x = Some n -> is_connect (ci_out x) = true ->
  forall pre h s k, reach E h s -> s_phase s = PConn a n Waiting -> get_conn a (s_conns s) = Some k -> k_alive k = true -> k_e2n k = pre ++ [x] ->
  (forall y, In y (pre ++ [x]) -> sendable_request (ci_out y)) ->
  exists s' k', run E s (repeat (EvWrite a now true) (length (pre ++ [x]))) = Some s' /\
    s_phase s' = PConn a n Waiting /\ s_clients s' = s_clients s /\ s_res s' = s_res s /\
    s_log s' = s_log s ++ map (fun y => OWrite a (ci_src y) (ci_out y) true) (pre ++ [x]) /\
    get_conn a (s_conns s') = Some k' /\ k_alive k' = true /\ k_errored k' = k_errored k /\ k_res k' = [(kconnect, n)].
Proof.
  intros Hn Sx Cx. induction pre as [|y pre IH]; intros h s k H P K A Q F.
  - cbn [app] in *. destruct (F x (or_introl eq_refl)) as (F1 & F2 & F3). destruct (C10_requests_reach_the_wire (e_oc E) now (ci_out x) F1 Hn F2 F3) as (mc & b & T & B & _).
    assert (X : encodes E now (ci_out x) = Ok b) by (unfold encodes; rewrite T; exact B).
    cbn [length repeat run]. rewrite (step_write E s a k x [] now b K A Q X).
    pose proof (reach_winv E h s H) as W. pose proof (v_c E s (reach_all E h s H)) as C.
    pose proof (w_nd s W a k K) as N. rewrite Q in N. cbn [qsrc flat_map] in N. rewrite Sx in N. cbn [app] in N. inversion N as [|? ? N1 N2]; subst.
    destruct (put_item_cases s a k x [] E C W K Q) as [[_ [Z|Z]]|(m & Z & PI)]; [cbn in Z; rewrite Sx in Z; discriminate|congruence|].
    cbn in Z. rewrite Sx in Z. injection Z as <-.
    eexists. eexists. split; [reflexivity|]. pj. rewrite PI. cbn [snd fst]. split; [rewrite (wake_other _ _ _ a n P N1); exact P|].
    split; auto. split; auto. split; auto. split; [apply get_set_same|]. pj. auto.
  - destruct (F y (or_introl eq_refl)) as (F1 & F2 & F3). destruct (C10_requests_reach_the_wire (e_oc E) now (ci_out y) F1 Hn F2 F3) as (mc & b & T & B & _).
    assert (X : encodes E now (ci_out y) = Ok b) by (unfold encodes; rewrite T; exact B).
    cbn [app length repeat run]. pose proof (step_write E s a k y (pre ++ [x]) now b K A Q X) as ST. rewrite ST.
    pose proof (reach_winv E h s H) as W. pose proof (v_c E s (reach_all E h s H)) as C.
    pose proof (w_nd s W a k K) as N.
    assert (Nr : ~ In n (snd (put_item y (k_res k)))).
    { rewrite Q in N. intros Y. apply (nodup_two _ _ n N).
      - change ((y :: pre) ++ [x]) with (y :: pre ++ [x]). change (y :: pre ++ [x]) with ((y :: pre) ++ [x]). rewrite qsrc_app. apply in_app_iff. right. cbn. rewrite Sx. now left.
      - destruct (put_item_cases s a k y (pre ++ [x]) E C W K Q) as [[PI _]|(m & _ & PI)]; rewrite PI in Y; [destruct Y|exact Y]. }
    destruct (IH (h ++ [EvWrite a now true]) (say (popped s a k y (pre ++ [x])) [OWrite a (ci_src y) (ci_out y) true])
      (mk_conn (pre ++ [x]) (k_n2e k) (fst (put_item y (k_res k))) true (k_errored k))) as (s' & k' & R & P' & Cl & Re & L & K' & A' & Er & Rs).
    + unfold reach in *. rewrite run_app, H. cbn [run]. now rewrite ST.
    + pj. rewrite (wake_other _ _ _ a n P Nr). exact P.
    + pj. apply get_set_same.
    + reflexivity.
    + reflexivity.
    + intros z Hz. apply F. now right.
    + exists s', k'. split; [exact R|]. split; [exact P'|]. split; [exact Cl|]. split; [exact Re|]. split; [|auto].
      rewrite L. cbn [s_log say popped with_phase put_conn with_conns map]. now rewrite <- app_assoc.
Qed.
(** The connection the client is on once its connect has been forwarded. *)
Definition destination (E : env) (home : baddr) (q : connect_req) : baddr :=
  if baddr_eqb (fill_address (e_cfg E) (cn_addr q)) (broker_address (e_cfg E)) then home else fill_address (e_cfg E) (cn_addr q).
Definition k_push (k : conn) (x : citem) : conn := mk_conn (k_e2n k ++ [x]) (k_n2e k) (k_res k) true (k_errored k).
Definition witem (n : nat) (o : outbound) : citem := mk_citem (Some n) o true.
Lemma go E t x n c q home : caddr E c = fill_address (e_cfg E) (cn_addr q) -> get_client (rc_id x) (s_clients t) = Some x -> rc_addr x = home ->
  forall k, get_conn (destination E home q) (s_conns t) = Some k -> k_alive k = true ->
  let s' := connected_to E t (rc_id x) n c in
  s_phase s' = PConn (destination E home q) n Waiting /\ get_conn (destination E home q) (s_conns s') = Some (k_push k (witem n (OConnect c))) /\
  s_res s' = s_res t /\ (exists l, s_log s' = s_log t ++ l).
Proof.
  intros Ca G Hh k K A. unfold connected_to. fold (caddr E c). unfold destination in *. rewrite <- Ca in *.
  destruct (baddr_eqb (caddr E c) (broker_address (e_cfg E))) eqn:B.
  - unfold forward. rewrite G, Hh. unfold send_conn. rewrite K, A. pj. split; auto. split; [apply get_set_same|]. split; auto. eexists. reflexivity.
  - unfold forward. cbn [s_clients with_clients]. destruct (get_client_move _ _ _ (rc_id x) (caddr E c) G) as (x' & G' & _ & Ax). rewrite N.eqb_refl in Ax.
    rewrite G', Ax. unfold send_conn. cbn [s_conns with_clients]. rewrite K, A. pj. split; auto. split; [apply get_set_same|]. split; auto. eexists. reflexivity.
Qed.
Lemma finish E h s a n k now mc pre x : reach E h s -> s_phase s = PConn a n Waiting -> get_conn a (s_conns s) = Some k -> k_alive k = true -> k_errored k = false ->
  k_e2n k = pre ++ [x] -> ci_src x = Some n -> is_connect (ci_out x) = true -> (forall y, In y (pre ++ [x]) -> sendable_request (ci_out y)) -> now < 2 ^ 64 ->
  to_inbound mc = Ok InConnected ->
  exists m s' ser, run E s (repeat (EvWrite a now true) m ++ [EvNet a (IFrame mc); EvAnswered]) = Some s' /\
    In (OAnswer n ser InConnected) (s_log s') /\ s_phase s' = PRun /\ s_clients s' = s_clients s.
Proof.
  intros H P K A Er Q Sx Cx F Hn M.
  destruct (flush_connect E a n now x Hn Sx Cx pre h s k H P K A Q F) as (s1 & k1 & R & P1 & C1 & Re & L & K1 & A1 & E1 & Rs).
  exists (length (pre ++ [x])). rewrite run_app, R. cbn [run step]. rewrite K1, A1, E1, Er. cbn [negb orb andb]. unfold conn_net. rewrite M. cbn [ikey r_resolve].
  rewrite Rs. cbn [r_find]. change (str "CONNECT") with kconnect. rewrite bytes_eqb_refl, wake_eq. cbn [s_phase with_phase put_conn with_conns say with_counts].
  rewrite P1. cbn [wake_ph]. rewrite Nat.eqb_refl. unfold manager_send. cbn [ikey r_resolve s_res with_phase say put_conn with_conns with_counts].
  change (str "CONNECT") with kconnect.
  pose proof (c_ph E s (v_c E s (reach_all E h s H))) as PO. unfold phase_ok in PO. rewrite P in PO. destruct PO as (PO & _). rewrite Re, PO.
  eexists. eexists. split; [reflexivity|]. pj. split; [apply in_app_iff; right; now left|]. auto.
Qed.
(** Client [c]'s next request is a connect: it can complete with the cooperation of
    the authentication provider, of the broker it dials or is connected to, and of
    nobody else, if the clients registered before it have nothing queued. [d] is what the provider answers; [mc] any connected frame. *)
Definition sent_form (E : env) (q : connect_req) (d : bytes) : connect_req :=
  match e_auth E with
  | Some m => mk_connect (Some d) (Some m) (Some (fill_address (e_cfg E) (cn_addr q)))
  | None => mk_connect (cn_auth_data q) (cn_auth_method q) (Some (fill_address (e_cfg E) (cn_addr q)))
  end.

Theorem C58_connect_can_complete : forall E rank h s c id home n q post d now mc, reach E h s -> as_polled E rank h -> newids h <= 2 ^ 64 -> s_phase s = PRun ->
  In (c, id) (registered (s_log s)) -> v_home (look (broker_address (e_cfg E)) c (s_log s)) = Some home ->
  ch_up (s_ch s c) = (n, OConnect q) :: post ->
  let a := destination E home q in
  (forall k, get_conn a (s_conns s) = Some k -> k_alive k = true /\ k_errored k = false) ->
  (forall m o, In (m, o) (unwritten a (s_log s)) -> sendable_request o) ->
  sendable_request (OConnect (sent_form E q d)) -> now < 2 ^ 64 -> to_inbound mc = Ok InConnected ->
  (forall e, In e (clients_before c (s_log s)) -> idle_client e s) ->
  exists m s' ser, let h2 := (EvClient c :: (if e_auth E then [EvAuth (Ok d)] else []) ++ (if get_conn a (s_conns s) then [] else [EvDial true])) ++
       repeat (EvWrite a now true) m ++ [EvNet a (IFrame mc); EvAnswered] in
    run E s h2 = Some s' /\ as_polled E rank (h ++ h2) /\ In (OAnswer n ser InConnected) (s_log s') /\ s_phase s' = PRun.
Proof.
  intros E rank h s c id home n q post d now mc H Po Hn P R Hh U a Ka F Sq Hnow M Idl.
  destruct (client_of E h s c id H Hn) as (x & Xc & Xi & Fi & G & Home); auto; [rewrite P; discriminate|]. rewrite Hh in Home. injection Home as Home. subst id. symmetry in Home.
  pose proof (reach_wf E h s H) as W.
  assert (Nb : get_conn (broker_address (e_cfg E)) (s_conns s) <> None) by (apply (wf_cfg E s W); rewrite P; discriminate).
  assert (Nh : get_conn home (s_conns s) <> None) by (rewrite <- Home; apply (wf_addr E s W); exact (proj1 (find_some _ _ Fi))).
  set (c1 := sent_form E q d) in *.
  assert (Ca : caddr E c1 = fill_address (e_cfg E) (cn_addr q)) by (unfold c1, sent_form; destruct (e_auth E); reflexivity).
  (* the engine takes the request and asks for authentication data *)
  assert (X : exists t, run E s (EvClient c :: (if e_auth E then [EvAuth (Ok d)] else [])) = Some (dial_or_go E t (rc_id x) n c1) /\
     s_clients t = s_clients s /\ s_conns t = s_conns s).
  { assert (Ne : exists p l, s_conns s = p :: l) by (destruct (s_conns s) as [|p l]; [destruct Nb; reflexivity|eauto]). destruct Ne as (p & l & Cs).
    cbn [run step]. rewrite P, Fi, U, Cs. cbn [asks resp_of].
    destruct (r_put (okey (OConnect q)) n (s_res s)) as [res dropped]. unfold handle_outbound, c1, sent_form.
    destruct (e_auth E) as [m|] eqn:Au.
    - cbn [run step s_phase with_phase]. rewrite Au. eexists. split; [reflexivity|]. pj. auto.
    - eexists. split; [reflexivity|]. pj. auto. }
  destruct X as (t & Rt & Ct & Kt).
  (* and dials if it has to *)
  assert (Y : exists t' k, run E s (EvClient c :: (if e_auth E then [EvAuth (Ok d)] else []) ++ (if get_conn a (s_conns s) then [] else [EvDial true])) =
      Some (connected_to E t' (rc_id x) n c1) /\ s_clients t' = s_clients s /\ get_conn a (s_conns t') = Some k /\ k_alive k = true /\ k_errored k = false /\
      forall y, In y (k_e2n k) -> sendable_request (ci_out y)).
  { rewrite app_comm_cons, run_app, Rt. unfold dial_or_go. fold (caddr E c1). rewrite Ca, Kt. unfold a in *. unfold destination in *.
    destruct (baddr_eqb (fill_address (e_cfg E) (cn_addr q)) (broker_address (e_cfg E))) eqn:B.
    - apply baddr_eqb_spec in B. rewrite B. destruct (get_conn (broker_address (e_cfg E)) (s_conns s)) as [kb|]; [|destruct Nb; reflexivity].
      destruct (get_conn home (s_conns s)) as [k|] eqn:Kh; [|destruct Nh; reflexivity]. destruct (Ka k eq_refl) as [A1 A2].
      exists t, k. rewrite Kt. split; [reflexivity|]. conjs; auto. intros y Hy.
      destruct (unwritten_items E h s home k H Kh A1) as [_ Un]. rewrite Un in F. apply (F (ci_src y)). unfold outs. apply in_map_iff. eauto.
    - destruct (get_conn (fill_address (e_cfg E) (cn_addr q)) (s_conns s)) as [k|] eqn:Kh.
      + destruct (Ka k eq_refl) as [A1 A2]. exists t, k. rewrite Kt. split; [reflexivity|]. conjs; auto. intros y Hy.
        destruct (unwritten_items E h s _ k H Kh A1) as [_ Un]. rewrite Un in F. apply (F (ci_src y)). unfold outs. apply in_map_iff. eauto.
      + cbn [run step s_phase with_phase]. fold (caddr E c1). rewrite Ca. eexists. exists conn_init. split; [reflexivity|]. pj. rewrite get_set_same.
        conjs; auto. intros y []. }
  destruct Y as (t' & k & Rt' & Ct' & Kt' & Ak & Ek & Fk).
  destruct (go E t' x n c1 q home Ca) with (k := k) as (P1 & K1 & _ & _); auto; [now rewrite Ct'|]. fold a in P1, K1.
  destruct (finish E (h ++ (EvClient c :: (if e_auth E then [EvAuth (Ok d)] else []) ++ (if get_conn a (s_conns s) then [] else [EvDial true])))
     (connected_to E t' (rc_id x) n c1) a n (k_push k (witem n (OConnect c1))) now mc (k_e2n k) (witem n (OConnect c1))) as (m & s' & ser & Rf & L & Pf & _); auto.
  - unfold reach in *. rewrite run_app, H. exact Rt'.
  - intros y Hy. apply in_app_iff in Hy as [Hy|[<-|[]]]; [auto|exact Sq].
  - exists m, s', ser. cbv zeta. rewrite run_app, Rt'. conjs; auto. apply (polled_app E rank _ h s Po H); [|rewrite run_app, Rt'; congruence].
    intros g1 e g2 t0 X Rg. destruct g1 as [|y g1]; injection X as <- X; [cbn [run] in Rg; injection Rg as <-; exact Idl|].
    assert (Y : In e (((if e_auth E then [EvAuth (Ok d)] else []) ++ (if get_conn a (s_conns s) then [] else [EvDial true])) ++ repeat (EvWrite a now true) m ++ [EvNet a (IFrame mc); EvAnswered])) by (rewrite X; apply in_app_iff; right; now left).
    rewrite !in_app_iff in Y. destruct Y as [[Y|Y]|[Y|Y]].
    + destruct (e_auth E); [destruct Y as [<-|[]]; exact I|destruct Y].
    + destruct (get_conn a (s_conns s)); [destruct Y|destruct Y as [<-|[]]; exact I].
    + apply repeat_spec in Y. subst e. exact I.
    + destruct Y as [<-|[<-|[]]]; exact I.
Qed.
Print Assumptions C58_connect_can_complete.

(** * Events of the broker *)
Definition k_rest (k : conn) (q : list (nat * inbound)) : conn := mk_conn (k_e2n k) q (k_res k) (k_alive k) (k_errored k).
Lemma nodup_filtered {A B} (g : A -> B) (f : A -> bool) l : NoDup (map g l) -> NoDup (map g (filter f l)).
Proof.
  induction l as [|x l IH]; [auto|]. cbn [map filter]. intros N. inversion N as [|? ? N1 N2]; subst. destruct (f x); [|auto]. cbn [map]. constructor; auto.
  intros Hx. apply N1. apply in_map_iff in Hx as (y & <- & Hy). apply filter_In in Hy as [Hy _]. now apply in_map.
Qed.
Ltac other_conns := intros ?b ?B; rewrite ?get_set_other by congruence; reflexivity.
Ltac other_keys := rewrite ?set_conn_fst; auto; rewrite ?set_conn_fst; auto.
Lemma take_event E s a k ser i q c : s_phase s = PRun -> s_clients s <> [] -> get_conn a (s_conns s) = Some k -> k_alive k = true -> k_n2e k = (ser, i) :: q ->
  exists s' k', step E s (EvConn a) = Some s' /\ s_phase s' = PRun /\ s_clients s' = s_clients s /\ get_conn a (s_conns s') = Some k' /\ k_n2e k' = q /\ k_alive k' = true /\
    (forall b, b <> a -> get_conn b (s_conns s') = get_conn b (s_conns s)) /\ map fst (s_conns s') = map fst (s_conns s) /\
    ch_client (s_ch s' c) = ch_client (s_ch s c) /\ ch_use (s_ch s' c) = ch_use (s_ch s c) /\
    (NoDup (map rc_h (s_clients s)) -> exists e, ch_down (s_ch s' c) = ch_down (s_ch s c) ++ e) /\
    (forall key n, r_find key (s_res s) = Some n -> ikey i <> Some key -> r_find key (s_res s') = Some n).
Proof.
  intros P C K A N.
  assert (Ka : In a (map fst (s_conns s))).
  { clear - K. induction (s_conns s) as [|[b kb] l IH]; [discriminate|]. cbn [get_conn] in K. destruct (baddr_eqb a b) eqn:B; [apply baddr_eqb_spec in B; subst; now left|right; auto]. }
  cbn [step]. rewrite P, K, N. destruct (s_clients s) as [|y l] eqn:Cl; [congruence|].
  assert (X : i = InPing \/ i <> InPing) by (destruct i; auto; right; discriminate). destruct X as [-> |X].
  - unfold handle_inbound, send_conn. cbn [s_conns say put_conn with_conns]. rewrite get_set_same. cbn [k_alive k_e2n k_n2e k_res k_errored]. rewrite A.
    eexists. eexists. split; [reflexivity|]. pj. rewrite get_set_same. conjs; auto; [other_conns|other_keys|]. intros _. exists []. now rewrite app_nil_r.
  - rewrite handle_other by exact X. unfold manager_send. rewrite fix_key. cbn [s_res say put_conn with_conns].
    destruct (r_resolve (ikey i) (s_res s)) as [[n r]|] eqn:R.
    + eexists. exists (k_rest k q). split; [reflexivity|]. pj. unfold k_rest. cbn [k_n2e k_alive]. rewrite get_set_same. conjs; auto; [other_conns|other_keys| |].
      * intros _. exists []. now rewrite app_nil_r.
      * intros key m F Nk. unfold r_resolve in R. destruct (ikey i) as [ki|]; [|discriminate]. destruct (r_find ki (s_res s)); [|discriminate]. injection R as _ <-.
        rewrite r_find_del_other by congruence. exact F.
    + rewrite push_down_eq. eexists. exists (k_rest k q). split; [reflexivity|]. cbn [s_clients say put_conn with_conns s_ch].
      pj. unfold k_rest. cbn [k_n2e k_alive]. rewrite get_set_same.
      match goal with |- context [push_ch ?i ?hs ?f c] => destruct (push_ch_meta i hs f c) as (_ & _ & M1 & _ & M2); pose proof (push_ch_down i hs f c) as M3 end.
      conjs; auto; [other_conns|other_keys|]. intros ND. rewrite M3; [eauto|]. apply nodup_filtered. now rewrite Cl.
Qed.

(** No connection before [a] has an event waiting. *)
Definition first_up (rank : nat -> baddr -> nat) (s : sys) (a : baddr) : Prop :=
  forall b, In b (map fst (s_conns s)) -> (rank (length (s_conns s)) b < rank (length (s_conns s)) a)%nat -> idle_conn b s.
Lemma take_events E rank a c : forall pre h s k post, reach E h s -> as_polled E rank h -> first_up rank s a ->
  s_phase s = PRun -> s_clients s <> [] -> NoDup (map rc_h (s_clients s)) ->
  get_conn a (s_conns s) = Some k -> k_alive k = true -> k_n2e k = pre ++ post ->
  exists s' k', run E s (repeat (EvConn a) (length pre)) = Some s' /\ as_polled E rank (h ++ repeat (EvConn a) (length pre)) /\ first_up rank s' a /\
    s_phase s' = PRun /\ s_clients s' = s_clients s /\ get_conn a (s_conns s') = Some k' /\ k_n2e k' = post /\ k_alive k' = true /\
    ch_client (s_ch s' c) = ch_client (s_ch s c) /\ ch_use (s_ch s' c) = ch_use (s_ch s c) /\
    (forall key n, r_find key (s_res s) = Some n -> (forall x, In x pre -> ikey (snd x) <> Some key) -> r_find key (s_res s') = Some n).
Proof.
  induction pre as [|[ser i] pre IH]; intros h s k post H Po Fu P C ND K A N.
  - exists s, k. cbn [length repeat run]. rewrite app_nil_r. conjs; auto.
  - destruct (take_event E s a k ser i (pre ++ post) c P C K A N) as (s1 & k1 & S1 & P1 & C1 & K1 & N1 & A1 & Oc & Ok & M1 & M2 & _ & F1).
    assert (H1 : reach E (h ++ [EvConn a]) s1) by (unfold reach in *; rewrite run_app, H; cbn [run]; now rewrite S1).
    assert (Po1 : as_polled E rank (h ++ [EvConn a])) by (apply (polled_snoc E rank h _ s Po H); exact Fu).
    assert (Fu1 : first_up rank s1 a).
    { intros b B L. assert (Le : length (s_conns s1) = length (s_conns s)) by (rewrite <- !(map_length fst), Ok; reflexivity). rewrite Le in L. rewrite Ok in B.
      intros kb Kb. rewrite Oc in Kb; [exact (Fu b B L kb Kb)|]. intros ->. exact (Nat.lt_irrefl _ L). }
    destruct (IH (h ++ [EvConn a]) s1 k1 post H1 Po1 Fu1 P1) as (s2 & k2 & R & Po2 & Fu2 & P2 & C2 & K2 & N2 & A2 & M1' & M2' & F2); auto; [now rewrite C1|now rewrite C1|].
    rewrite <- app_assoc in Po2. exists s2, k2. cbn [length repeat run]. rewrite S1. conjs; auto; try congruence.
    intros key n F X. apply F2; [apply F1; [exact F|apply (X (ser, i)); now left]|]. intros y Hy. apply X. now right.
Qed.
Lemma receive E c i : forall pre s post, ch_client (s_ch s c) = true -> ch_use (s_ch s c) = true -> ch_down (s_ch s c) = pre ++ i :: post ->
  exists s', run E s (repeat (EvRecv c) (length pre + 1)) = Some s' /\ In (OGot c i) (s_log s').
Proof.
  induction pre as [|j pre IH]; intros s post C U D; cbn [length plus repeat run step]; rewrite C, U, D; cbn [app andb].
  - eexists. split; [reflexivity|]. pj. apply in_app_iff. right. now left.
  - destruct (IH (say (upd_ch s c (ch_set_down (pre ++ i :: post))) [OGot c j]) post) as (s' & R & L); try (pj; rewrite set_ch_same; auto; fail).
    exists s'. split; auto.
Qed.
(** A message that has arrived on a connection can be received by the consumer it is
    for by steps of the engine and that client alone, if the connections polled before
    it have no event waiting. *)
Theorem C58_message_can_be_received : forall E rank h s c id a k pre ser d post, reach E h s -> as_polled E rank h -> first_up rank s a -> newids h <= 2 ^ 64 -> s_phase s = PRun ->
  In (c, id) (registered (s_log s)) -> v_home (look (broker_address (e_cfg E)) c (s_log s)) = Some a -> d_cid d = id ->
  get_conn a (s_conns s) = Some k -> k_alive k = true -> k_n2e k = pre ++ (ser, InMessage d) :: post ->
  ch_client (s_ch s c) = true -> ch_use (s_ch s c) = true ->
  exists m s', let h2 := repeat (EvConn a) (length pre + 1) ++ repeat (EvRecv c) m in
    run E s h2 = Some s' /\ as_polled E rank (h ++ h2) /\ In (OGot c (InMessage d)) (s_log s').
Proof.
  intros E rank h s c id a k pre ser d post H Po Fu Hn P R Hh Di K A N Cc Cu.
  destruct (client_of E h s c id H Hn) as (x & Xc & Xi & Fi & G & Home); auto; [rewrite P; discriminate|]. rewrite Hh in Home. injection Home as ->. subst id.
  assert (Hx : In x (s_clients s)) by exact (proj1 (find_some _ _ Fi)).
  assert (Ne : s_clients s <> []) by (intros X; rewrite X in Hx; destruct Hx).
  pose proof (h_nodup s (v_h E s (reach_all E h s H))) as ND. apply NoDup_app_l in ND.
  destruct (take_events E rank (rc_addr x) c pre h s k _ H Po Fu P Ne ND K A N) as (s1 & k1 & R1 & Po1 & Fu1 & P1 & C1 & K1 & N1 & A1 & M1 & M2 & _).
  rewrite <- C1 in Ne, Hx, ND.
  assert (Hr : r_resolve (ikey (InMessage d)) (s_res s1) = None).
  { assert (H1 : reach E (h ++ repeat (EvConn (rc_addr x)) (length pre)) s1) by (unfold reach in *; rewrite run_app, H; exact R1).
    unfold r_resolve. destruct (ikey (InMessage d)) as [key|] eqn:Ke; [|reflexivity]. destruct (r_find key (s_res s1)) as [m|] eqn:F; [|reflexivity]. exfalso.
    apply (waiting_find s1 m key (v_r E s1 (reach_all E _ s1 H1))) in F as (o & _ & _ & F & _). exact (C22_deliveries_never_resolve o d key F Ke). }
  assert (S2 : exists s2, step E s1 (EvConn (rc_addr x)) = Some s2 /\ ch_client (s_ch s2 c) = true /\ ch_use (s_ch s2 c) = true /\ ch_down (s_ch s2 c) = ch_down (s_ch s1 c) ++ [InMessage d]).
  { cbn [step]. rewrite P1, K1, N1. destruct (s_clients s1) as [|y l] eqn:Cl; [congruence|]. rewrite <- Cl in *. clear y l Cl.
    eexists. split; [reflexivity|]. cbn [handle_inbound fix_lookup]. unfold manager_send. cbn [s_res say put_conn with_conns]. rewrite Hr. rewrite push_down_eq. cbn [s_clients s_ch say put_conn with_conns with_ch].
    match goal with |- context [push_ch ?i ?hs ?f c] => destruct (push_ch_meta i hs f c) as (_ & _ & -> & _ & ->); rewrite (push_ch_down i hs f c) end; [|now apply nodup_filtered].
    split; [congruence|]. split; [congruence|]. f_equal.
    assert (is_in c (map rc_h (filter (addressed (rc_addr x) (InMessage d)) (s_clients s1))) = true) as ->.
    { apply existsb_exists. exists c. split; [|apply Nat.eqb_refl]. rewrite <- Xc. apply in_map. apply filter_In. split; auto.
      unfold addressed. rewrite baddr_eqb_refl. cbn [target_id andb]. apply N.eqb_eq. congruence. }
    now rewrite M1, Cc. }
  destruct S2 as (s2 & S2 & Cc2 & Cu2 & D2).
  destruct (receive E c (InMessage d) (ch_down (s_ch s1 c)) s2 [] Cc2 Cu2 D2) as (s3 & R3 & L3).
  assert (Rr : run E s (repeat (EvConn (rc_addr x)) (length pre + 1)) = Some s2) by (rewrite repeat_app, run_app, R1; cbn [repeat run]; now rewrite S2).
  exists (length (ch_down (s_ch s1 c)) + 1)%nat, s3. cbv zeta. conjs; auto; [now rewrite run_app, Rr|].
  assert (H1 : reach E (h ++ repeat (EvConn (rc_addr x)) (length pre)) s1) by (unfold reach in *; rewrite run_app, H; exact R1).
  pose proof (polled_snoc E rank _ (EvConn (rc_addr x)) s1 Po1 H1 Fu1) as Po2.
  rewrite repeat_app. cbn [repeat]. rewrite !app_assoc. apply (polled_app E rank _ _ s2 Po2).
  - unfold reach in *. rewrite run_app, H1. cbn [run]. now rewrite S2.
  - intros g1 e g2 t X _. assert (Y : In e (repeat (EvRecv c) (length (ch_down (s_ch s1 c)) + 1))) by (rewrite X; apply in_app_iff; right; now left). apply repeat_spec in Y. subst e. exact I.
  - now rewrite R3.
Qed.
Print Assumptions C58_message_can_be_received.
(** An answer that has arrived on a connection reaches the request waiting for it by
    steps of the engine alone, likewise. *)
Theorem C58_answer_can_be_taken : forall E rank h s a k pre ser i post key n, reach E h s -> as_polled E rank h -> first_up rank s a -> s_phase s = PRun -> s_clients s <> [] ->
  get_conn a (s_conns s) = Some k -> k_alive k = true -> k_n2e k = pre ++ (ser, i) :: post ->
  waiting_on (s_log s) n key -> ikey i = Some key -> (forall x, In x pre -> ikey (snd x) <> Some key) ->
  exists s' j, run E s (repeat (EvConn a) (length pre + 1)) = Some s' /\ as_polled E rank (h ++ repeat (EvConn a) (length pre + 1)) /\
    In (OAnswer n ser j) (s_log s') /\ seen_as a i j.
Proof.
  intros E rank h s a k pre ser i post key n H Po Fu P Ne K A N W Ik Pre. pose proof (reach_all E h s H) as V.
  apply (waiting_find s n key (v_r E s V)) in W.
  pose proof (h_nodup s (v_h E s V)) as ND. apply NoDup_app_l in ND.
  destruct (take_events E rank a 0%nat pre h s k _ H Po Fu P Ne ND K A N) as (s1 & k1 & R1 & Po1 & Fu1 & P1 & C1 & K1 & N1 & A1 & _ & _ & F1).
  specialize (F1 key n W Pre). rewrite <- C1 in Ne.
  assert (H1 : reach E (h ++ repeat (EvConn a) (length pre)) s1) by (unfold reach in *; rewrite run_app, H; exact R1).
  pose proof (polled_snoc E rank _ (EvConn a) s1 Po1 H1 Fu1) as Po2. rewrite <- app_assoc in Po2.
  rewrite repeat_app, run_app, R1. cbn [repeat run step]. rewrite P1, K1, N1. destruct (s_clients s1) as [|y l] eqn:Cl; [congruence|].
  assert (X : i <> InPing) by (intros ->; discriminate).
  rewrite handle_other by exact X. unfold manager_send. rewrite fix_key, Ik. cbn [s_res say put_conn with_conns r_resolve]. rewrite F1.
  eexists. exists (fix_lookup a i). split; [reflexivity|]. split; [exact Po2|]. split; [pj; apply in_app_iff; right; now left|].
  apply fix_seen.
Qed.
Print Assumptions C58_answer_can_be_taken.
(** The first request of client 1 of two is a connect through a proxy to a broker
    nobody is connected to, while client 0 has an ack waiting on its connection. *)
Definition x_progress : list event := x_reg2 ++ x_connect 0%nat ++
  [EvIssue 0%nat (x_ack 0); EvClient 0%nat; EvIssue 1%nat (OConnect (mk_connect None None (Some (Proxy [] (str "h")))))].
Example C58_case : exists s k, reach xE x_progress s /\ (forall rank, as_polled xE rank x_progress) /\ s_phase s = PRun /\ In (1%nat, 1) (registered (s_log s)) /\ In (0%nat, 0) (registered (s_log s)) /\
  (forall c, c = 0%nat \/ c = 1%nat -> v_home (look xA c (s_log s)) = Some xA) /\
  clients_before 1%nat (s_log s) = [0%nat] /\ idle_client 0%nat s /\ ch_up (s_ch s 1%nat) = [(2%nat, OConnect (mk_connect None None (Some (Proxy [] (str "h")))))] /\
  get_conn xA (s_conns s) = Some k /\ k_alive k = true /\ k_errored k = false /\
  get_conn (destination xE xA (mk_connect None None (Some (Proxy [] (str "h"))))) (s_conns s) = None /\
  destination xE xA (mk_connect None None (Some (Proxy [] (str "h")))) <> xA /\
  unwritten xA (s_log s) = [(Some 1%nat, x_ack 0)] /\ sendable_request (x_ack 0) /\
  sendable_request (OConnect (sent_form xE (mk_connect None None (Some (Proxy [] (str "h")))) [])) /\
  (exists mc, f_connected = IFrame mc /\ to_inbound mc = Ok InConnected).
Proof.
  unfold reach. destruct (run xE sys_init x_progress) as [s|] eqn:R; [|vm_compute in R; discriminate]. vm_compute in R. injection R as <-.
  eexists. eexists. split; [reflexivity|]. split; [apply orderly_polled; vm_compute; reflexivity|]. split; [reflexivity|]. split; [vm_compute; auto|]. split; [vm_compute; auto|].
  split; [intros c [->| ->]; vm_compute; reflexivity|]. split; [vm_compute; reflexivity|]. split; [split; vm_compute; reflexivity|]. split; [vm_compute; reflexivity|].
  split; [vm_compute; reflexivity|]. split; [reflexivity|]. split; [reflexivity|]. split; [vm_compute; reflexivity|]. split; [vm_compute; discriminate|].
  split; [vm_compute; reflexivity|]. split; [|split].
  - split; [|split; [vm_compute; reflexivity|discriminate]]. constructor; [|constructor]. repeat split; vm_compute; try reflexivity; auto.
  - split; [|split; [vm_compute; reflexivity|discriminate]]. repeat split; vm_compute; try reflexivity; auto.
  - eexists. split; [reflexivity|]. vm_compute. reflexivity.
Qed.
(** Both clients have requests queued, client 0 two of them. *)
Definition x_turn : list event := x_reg2 ++ x_connect 0%nat ++ x_connect 1%nat ++
  [EvIssue 1%nat (OFlow 1 9); EvIssue 1%nat (x_ack 1); EvIssue 0%nat (OFlow 0 9); EvIssue 0%nat (x_ack 0)].
Example C58_turn : exists s k, reach xE x_turn s /\ (forall rank, as_polled xE rank x_turn) /\ s_phase s = PRun /\ In (1%nat, 1) (registered (s_log s)) /\
  v_home (look xA 1%nat (s_log s)) = Some xA /\ get_conn xA (s_conns s) = Some k /\ k_alive k = true /\
  ch_up (s_ch s 1%nat) = [(2%nat, OFlow 1 9)] ++ (3%nat, x_ack 1) :: [] /\ sendable_request (OFlow 1 9) /\ sendable_request (x_ack 1) /\
  unwritten xA (s_log s) = [] /\ clients_before 1%nat (s_log s) = [0%nat] /\ servable xE s 0%nat /\ length (ch_up (s_ch s 0%nat)) = 2%nat.
Proof.
  assert (A : forall i, i < 2 ^ 64 -> sendable_request (x_ack i)).
  { intros i Hi. split; [|split; [vm_compute; reflexivity|discriminate]]. constructor; [|constructor]. split; [exact Hi|]. split; [split; vm_compute; reflexivity|vm_compute; reflexivity]. }
  assert (Fl : forall i, i < 2 ^ 64 -> sendable_request (OFlow i 9)).
  { intros i Hi. split; [|split; [vm_compute; reflexivity|discriminate]]. split; [exact Hi|vm_compute; reflexivity]. }
  unfold reach. destruct (run xE sys_init x_turn) as [s|] eqn:R; [|vm_compute in R; discriminate]. vm_compute in R. injection R as <-.
  eexists. eexists. split; [reflexivity|]. split; [apply orderly_polled; vm_compute; reflexivity|]. split; [reflexivity|]. split; [vm_compute; auto|].
  split; [vm_compute; reflexivity|]. split; [vm_compute; reflexivity|]. split; [reflexivity|]. split; [vm_compute; reflexivity|].
  split; [apply Fl; vm_compute; reflexivity|]. split; [apply A; vm_compute; reflexivity|]. split; [vm_compute; reflexivity|]. split; [vm_compute; reflexivity|].
  split; [|vm_compute; reflexivity]. split; [vm_compute; reflexivity|]. intros m q Hq.
  assert (Y : q = OFlow 0 9 \/ q = x_ack 0) by (vm_compute in Hq; destruct Hq as [[= _ <-]|[[= _ <-]|[]]]; auto).
  split; [destruct Y as [->| ->]; discriminate|]. split; [destruct Y as [->| ->]; [apply Fl|apply A]; vm_compute; reflexivity|].
  eexists xA, _. split; [vm_compute; reflexivity|]. split; [vm_compute; reflexivity|]. reflexivity.
Qed.
(** A ping, an answer to client 0's ack and a message for client 1 have arrived. *)
Definition x_arrived : list event := x_reg2 ++ x_connect 0%nat ++ x_connect 1%nat ++
  [EvIssue 0%nat (x_ack 0); EvClient 0%nat; EvWrite xA 0 true; EvNet xA f_ping; EvNet xA (f_ack 0); EvNet xA (f_msg 1 9 (str "hi"))].
Example C58_arrived : exists s k i d, reach xE x_arrived s /\ (forall rank, as_polled xE rank x_arrived) /\ (forall rank, first_up rank s xA) /\ s_phase s = PRun /\ s_clients s <> [] /\ In (1%nat, 1) (registered (s_log s)) /\
  v_home (look xA 1%nat (s_log s)) = Some xA /\ d_cid d = 1 /\ get_conn xA (s_conns s) = Some k /\ k_alive k = true /\
  k_n2e k = [(2%nat, InPing); (3%nat, i); (4%nat, InMessage d)] /\ ch_client (s_ch s 1%nat) = true /\ ch_use (s_ch s 1%nat) = true /\
  exists key, waiting_on (s_log s) 2%nat key /\ ikey i = Some key /\ ikey InPing <> Some key.
Proof.
  unfold reach. destruct (run xE sys_init x_arrived) as [s|] eqn:R; [|vm_compute in R; discriminate].
  pose proof (v_r xE s (reach_all xE x_arrived s R)) as V. assert (W : forall key, r_find key (s_res s) = Some 2%nat -> waiting_on (s_log s) 2%nat key) by (intros key X; now apply waiting_find).
  clear V. vm_compute in R. injection R as <-.
  do 2 eexists. exists (InAckReceipt 0 0), (DSingle 1 [(1, PInt 7); (2, PInt 9)] (str "hi")).
  split; [reflexivity|]. split; [apply orderly_polled; vm_compute; reflexivity|].
  split; [intros rank b B L; exfalso; assert (b = xA) as -> by (vm_compute in B; destruct B as [<-|[]]; vm_compute; reflexivity); exact (Nat.lt_irrefl _ L)|]. split; [reflexivity|]. split; [discriminate|]. split; [vm_compute; auto|]. split; [vm_compute; reflexivity|].
  split; [|split; [vm_compute; reflexivity|split; [reflexivity|split; [vm_compute; reflexivity|split; [reflexivity|split; [reflexivity|]]]]]]; [reflexivity|].
  exists (str "ACK"). split; [apply W; vm_compute; reflexivity|]. split; [vm_compute; reflexivity|vm_compute; discriminate].
Qed.
