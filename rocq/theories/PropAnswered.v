(** C77: a request that completes was read by the broker that answered. *)
From Verif Require Import Bytes Errors Wire Proto Codec SpecFrame SpecCodec Address Message SpecMessage Client SpecKeys SpecClient Producer Engine SpecEngine SpecEngine2 Sink SpecStack SpecAnswered SinkFacts EngineFacts EngineInv EngineReq EngineEv EngineConn EngineLog EngineQueue EngineNet EngineEx SpecTurn TurnFacts CodecFacts MessageFacts PropCodec PropMessage PropClient PropProducer PropEngine PropEngine2 PropEngine6 PropStack PropReceipt PropRoute PropDeliver PropSends PropTurn.
Open Scope N_scope.

Lemma kind_eqb_spec k k' : kind_eqb k k' = true <-> k = k'.
Proof. destruct k, k'; cbn; split; try discriminate; try reflexivity; [intros H; apply N.eqb_eq in H; now subst|intros [= ->]; apply N.eqb_refl]. Qed.
Lemma is_kind_spec k x : is_kind k x = true <-> x = Some k.
Proof. destruct x as [k'|]; cbn; [rewrite kind_eqb_spec; split; [now intros ->|now intros [= ->]]|split; discriminate]. Qed.
Lemma answersb_spec k i : answersb k i = true <-> answers i k.
Proof. destruct i, k; cbn; split; try discriminate; try contradiction; auto; apply N.eqb_eq. Qed.
Lemma denotes_kind now o mc : denotes now o mc -> command_kind mc = kind_of o.
Proof.
  intros D. unfold command_kind. destruct o as [| | |p|acks| | | | |]; cbn [denotes kind_of] in *.
  1-2: destruct D as ((D1 & _) & _); now rewrite D1.
  - destruct D as (_ & s & (D1 & _) & _). now rewrite D1.
  - destruct D as (s & p0 & (D1 & D2 & _) & _ & D3). rewrite D1, D2. destruct p; destruct D3 as (_ & D3 & _); unfold int_field in D3; rewrite D3; now rewrite N2Z.id.
  - destruct D as (_ & s & a & Ha & (D1 & _) & _). now rewrite D1.
  - destruct D as (_ & s & (D1 & _) & _). now rewrite D1.
  - destruct D as (_ & s & (D1 & _) & _). now rewrite D1.
  - destruct D as (_ & s & (D1 & _) & _). now rewrite D1.
  - destruct D as (_ & s & (D1 & _) & _). now rewrite D1.
  - destruct D as (_ & s & (D1 & _) & _). now rewrite D1.
Qed.

(** ** C35 for one kind *)
Definition honest_of (k : kind) (l : list obs) (reply : nat -> nat) : Prop :=
  (forall l1 a ser i l2, l = l1 ++ OArrive a ser i :: l2 -> answers i k ->
     exists o ok, In (OWrite a (Some (reply ser)) o ok) l1 /\ kind_of o = Some k) /\
  (forall a i b j ser ser', In (OArrive a ser i) l -> In (OArrive b ser' j) l -> answers i k -> answers j k -> reply ser = reply ser' -> ser = ser').
Lemma answers_kind i k k' : answers i k -> answers i k' -> k = k'.
Proof. destruct i, k, k'; cbn; try contradiction; try reflexivity. congruence. Qed.
Theorem C35_one_kind : forall E h s k reply, reach E h s -> no_collision_of k (s_log s) -> honest_of k (s_log s) reply ->
  forall n o ser i, requested (s_log s) n o -> kind_of o = Some k -> In (OAnswer n ser i) (s_log s) -> reply ser = n.
Proof.
  intros E h s k reply H Hnc [H1 H2]. pose proof (reach_entries E h s H) as En.
  pose proof (v_r E s (reach_all E h s H)) as R.
  assert (Uq : forall n o l r, s_log s = l ++ r -> requested (s_log s) n o -> forall o', requested l n o' -> o' = o).
  { intros n o l r El [c Q] o' [c' Q']. refine (proj2 (r_uniq s R c' n o' c o _ Q)). rewrite El. apply in_app_iff. now left. }
  assert (G : forall len l1 n o ser i l2, (length l1 < len)%nat -> s_log s = l1 ++ OAnswer n ser i :: l2 -> requested (s_log s) n o -> kind_of o = Some k -> reply ser = n).
  { induction len as [|len IH]; intros l1 n o ser i l2 Hl El Rq Kd; [lia|].
    destruct (C34_answer_of_its_kind E h s _ _ _ _ _ H El) as (l0 & a & i0 & k0 & -> & Ha & Ei & Hf & An).
    assert (El0 : s_log s = l0 ++ OHandle a ser i0 :: OAnswer n ser i :: l2) by (rewrite El, <- app_assoc; reflexivity).
    assert (k0 = k) as ->. { destruct Hf as (o0 & F1 & F2 & _). rewrite (Uq n o _ _ El0 Rq o0 F1) in F2. congruence. }
    destruct (En _ _ _ El0) as (Hs & _). rewrite (seen_answers _ _ _ _ Ei) in An.
    apply in_split in Ha as (p1 & p2 & Ep).
    destruct (H1 p1 a ser i0 (p2 ++ OHandle a ser i0 :: OAnswer n ser i :: l2)) as (o1 & okw & Ho & Hk); auto.
    { rewrite El0, Ep, <- app_assoc. reflexivity. }
    set (m := reply ser) in *. destruct (Nat.eq_dec m n) as [|Hne]; auto. exfalso.
    assert (Hm : exists q, requested l0 m q /\ kind_of q = Some k /\ In m (takes l0)).
    { apply in_split in Ho as (q1 & q2 & Eq). pose proof (En q1 (OWrite a (Some m) o1 okw) (q2 ++ OArrive a ser i0 :: p2 ++ OHandle a ser i0 :: OAnswer n ser i :: l2)) as X.
      rewrite El0, Ep, Eq, <- !app_assoc in X. specialize (X eq_refl). cbn in X.
      apply in_split in X as (r1 & r2 & Er). pose proof (En r1 (OForward m a o1) (r2 ++ OWrite a (Some m) o1 okw :: q2 ++ OArrive a ser i0 :: p2 ++ OHandle a ser i0 :: OAnswer n ser i :: l2)) as X.
      rewrite El0, Ep, Eq, Er, <- !app_assoc in X. specialize (X eq_refl). cbn in X. destruct X as (_ & _ & X & _ & q & Q1 & Q2).
      exists q. rewrite Ep, Eq, Er, <- !app_assoc. split; [now apply requested_app|]. split; [rewrite <- (formed_kind _ _ _ _ _ Q2); exact Hk|].
      rewrite takes_app. apply in_app_iff. auto. }
    destruct Hm as (q & Q1 & Q2 & Q3).
    assert (Hx : expects k = true) by (destruct Hf as (? & _ & _ & ? & _); auto).
    assert (Q1' : requested (s_log s) m q) by (rewrite El0; now apply requested_app).
    destruct (in_dec Nat.eq_dec m (settled l0)) as [Hst|Hst].
    - apply settled_in in Hst as [(ser' & j & X)|X]; apply in_split in X as (r1 & r2 & Er).
      + assert (Er' : s_log s = r1 ++ OAnswer m ser' j :: r2 ++ OHandle a ser i0 :: OAnswer n ser i :: l2) by (rewrite El0, Er, <- app_assoc; reflexivity).
        assert (F : reply ser' = m).
        { apply (IH r1 m q ser' j _) with (2 := Er'); auto. rewrite Er, !app_length in Hl. cbn in Hl. lia. }
        destruct (C34_answer_of_its_kind E h s _ _ _ _ _ H Er') as (t0 & b & j0 & k' & -> & Hb & Ej & Hf' & An').
        assert (k' = k) as ->. { destruct Hf' as (o0 & F1 & F2 & _). rewrite <- app_assoc in Er'. rewrite (Uq m q _ _ Er' Q1' o0 F1) in F2. congruence. }
        rewrite (seen_answers _ _ _ _ Ej) in An'.
        assert (ser' = ser).
        { apply (H2 b j0 a i0 ser' ser); auto.
          - rewrite Er'. rewrite <- app_assoc. apply in_app_iff. auto.
          - rewrite El0, Ep. apply in_app_iff. left. apply in_elt. }
        subst ser'. pose proof (C34_events_used_once E h s H) as Nd. rewrite Er' in Nd.
        rewrite answering_app in Nd. cbn [answering flat_map app] in Nd. apply NoDup_remove_2 in Nd. apply Nd.
        apply in_app_iff. right. fold (answering (r2 ++ OHandle a ser i0 :: OAnswer n ser i :: l2)). rewrite answering_app. apply in_app_iff. right. now left.
      + pose proof (En r1 (OCancel m) (r2 ++ OHandle a ser i0 :: OAnswer n ser i :: l2)) as X. rewrite El0, Er, <- app_assoc in X. specialize (X eq_refl).
        cbn in X. destruct X as [X|(t0 & n' & key & o' & -> & W & X1 & X2 & X3)].
        * apply Hs. rewrite Er. apply in_app_iff. auto.
        * apply PropEngine.waiting_flight in W as (k' & q' & F1 & F2 & F3 & F4).
          assert (K : kind_of o' = kind_of q') by (apply C23_key_iff_kind; congruence).
          assert (Et : s_log s = t0 ++ OTake n' :: OCancel m :: r2 ++ OHandle a ser i0 :: OAnswer n ser i :: l2) by (rewrite El0, Er, <- !app_assoc; reflexivity).
          assert (k' = k) as ->. { destruct F1 as (o0 & G1 & G2 & _). rewrite (Uq m q _ _ Et Q1' o0 G1) in G2. congruence. }
          apply (Hnc t0 n' (OCancel m :: r2 ++ OHandle a ser i0 :: OAnswer n ser i :: l2) m o'); auto. congruence.
    - assert (Fm : in_flight l0 m k) by (exists q; auto).
      destruct (flight_waiting l0 m k Fm) as (key & Wm & K). destruct (En _ _ _ El0) as (_ & _ & _ & Hh).
      assert (Ki : ikey i0 = Some key) by (rewrite <- (K q Q2); symmetry; now apply (C22_match_iff_answers q i0 k Q2)).
      destruct (Hh m key Wm Ki) as (r & Er). injection Er as Er. congruence. }
  intros n o ser i Rq Kd X. apply in_split in X as (l1 & l2 & El). exact (G _ l1 n o ser i l2 (Nat.lt_succ_diag_r _) El Rq Kd).
Qed.
Print Assumptions C35_one_kind.
Lemma honest_each l reply k : honest l reply -> honest_of k l reply.
Proof. intros [A B]. split; [intros; eapply A; eauto|intros; eapply B; eauto]. Qed.
Lemma collision_each l k : no_collision l -> no_collision_of k l.
Proof. intros A l1 n l2 m o. intros; eapply A; eauto. Qed.
(** The run of C35_meets: receipts in another order than the sends, and a lookup between. *)
Example C35_meets_one_kind : match xrun x_ooo with
  | Some l => forall k, no_collision_of k l /\ honest_of k l x_reply /\ settled l = [0; 2; 3; 1]%nat
  | None => False end.
Proof. generalize C35_meets. destruct (xrun x_ooo) as [l|]; auto. intros (A & B & C) k. auto using honest_each, collision_each. Qed.

(** ** Arrivals *)
Lemma trans_arrive E s e s' : trans E s e s' -> exists c, s_log s' = s_log s ++ c /\ (forallb unread c = true \/ exists a ser i, c = [OArrive a ser i]).
Proof.
  intros T.
  assert (Q : forall c, s_log s' = s_log s ++ c -> forallb unread c = true -> exists c, s_log s' = s_log s ++ c /\ (forallb unread c = true \/ exists a ser i, c = [OArrive a ser i])).
  { intros c Y Z. exists c. auto. }
  assert (Q0 : s_log s' = s_log s -> exists c, s_log s' = s_log s ++ c /\ (forallb unread c = true \/ exists a ser i, c = [OArrive a ser i])).
  { intros Y. exists []. rewrite app_nil_r. auto. }
  assert (Z : forall t c, s' = stop t -> s_log t = s_log s ++ c -> forallb unread c = true -> exists c, s_log s' = s_log s ++ c /\ (forallb unread c = true \/ exists a ser i, c = [OArrive a ser i])).
  { intros t c -> Y U. apply (Q (c ++ stop_log t)); auto; [rewrite stop_log_eq, Y, <- app_assoc; reflexivity|]. rewrite forallb_app, U. apply unread_stop. }
  assert (D : forall t c, s_log t = s_log s ++ c -> forallb unread c = true -> (exists d, s_log s' = s_log t ++ d /\ forallb unread d = true) -> exists c, s_log s' = s_log s ++ c /\ (forallb unread c = true \/ exists a ser i, c = [OArrive a ser i])).
  { intros t c Y U (d & Y' & U'). apply (Q (c ++ d)); auto; [rewrite Y', Y, <- app_assoc; reflexivity|]. rewrite forallb_app, U. exact U'. }
  destruct T; try (apply Q0; reflexivity);
    try (eapply Q; [reflexivity|first [reflexivity|apply unread_ends]]; fail);
    try (eapply Z; [reflexivity|reflexivity|reflexivity]; fail);
    try (apply (Z s []); [reflexivity|symmetry; apply app_nil_r|reflexivity]);
    try (eapply D; [apply taken_log| |eapply fwd_unread; eassumption]; cbn; apply unread_cancel);
    try (eexists; split; [reflexivity|]; right; eauto; fail).
  - eapply Q; [reflexivity|]. destruct (ch_engine (s_ch s h)); [reflexivity|apply unread_cancel].
  - eapply Q; [apply taken_log|]. cbn. apply unread_cancel.
  - eapply Q; [apply taken_log|]. cbn. apply unread_cancel.
  - refine (D _ _ _ _ (fwd_unread _ _ _ _ _ H6)); [rewrite moved_log; apply taken_log|]. cbn. apply unread_cancel.
  - refine (D _ _ _ _ (fwd_unread _ _ _ _ _ H1)); [rewrite moved_log; reflexivity|reflexivity].
  - refine (D _ _ _ _ (fwd_unread _ _ _ _ _ H0)); [rewrite moved_log; reflexivity|reflexivity].
  - refine (D _ _ _ _ (sent_unread _ _ _ _ _ H0)); reflexivity.
  - refine (D _ _ _ _ (sent_unread _ _ _ _ _ H4)); reflexivity.
Qed.
(** The moment an event arrives. *)
Lemma arrival_moment E h s : reach E h s -> forall l1 a ser i l2, s_log s = l1 ++ OArrive a ser i :: l2 ->
  exists g1 g2 t, h = g1 ++ g2 /\ reach E g1 t /\ s_log t = l1 ++ [OArrive a ser i].
Proof.
  revert s. induction h as [|e h IH] using rev_ind; intros s H l1 a ser i l2 El.
  - injection H as <-. destruct l1; discriminate.
  - unfold reach in H. rewrite run_app in H. destruct (run E sys_init h) as [s1|] eqn:R; [|discriminate]. cbn [run] in H.
    destruct (step E s1 e) as [s2|] eqn:ST; [|discriminate]. injection H as <-.
    destruct (trans_arrive E s1 e s2 (step_trans E s1 e s2 (reach_wf E h s1 R) ST)) as (c & L & C).
    assert (X : (exists r, s_log s1 = l1 ++ OArrive a ser i :: r) \/ In (OArrive a ser i) c /\ exists c1 c2, c = c1 ++ OArrive a ser i :: c2 /\ l1 = s_log s1 ++ c1).
    { rewrite El in L. clear - L. revert L. generalize (s_log s1). intros m. revert l1. induction m as [|x m IH]; intros l1 L.
      - right. cbn in L. subst c. split; [apply in_elt|]. exists l1, l2. auto.
      - destruct l1 as [|y l1]; cbn in L; injection L as <- L; [left; now exists m|]. destruct (IH l1 L) as [[r ->]|(A & c1 & c2 & B & ->)]; [left; now exists r|right]. split; [exact A|]. exists c1, c2. auto. }
    destruct X as [[r X]|(X & c1 & c2 & -> & ->)].
    + destruct (IH s1 R l1 a ser i r X) as (g1 & g2 & t & -> & G). exists g1, (g2 ++ [e]), t. rewrite <- app_assoc. auto.
    + destruct C as [C|(b & sr & j & C)].
      * rewrite forallb_forall in C. now specialize (C _ X).
      * destruct c1 as [|? [|]]; try discriminate. injection C as -> -> -> ->. exists (h ++ [e]), [], s2. rewrite app_nil_r. split; [reflexivity|].
        split; [unfold reach; rewrite run_app, R; cbn [run]; now rewrite ST|]. rewrite L. now rewrite app_nil_r.
Qed.
Definition serials (k : kind) (a : baddr) (l : list obs) : list nat :=
  flat_map (fun x => match x with OArrive b ser i => if baddr_eqb b a && answersb k i then [ser] else [] | _ => [] end) l.
Lemma serials_app k a l m : serials k a (l ++ m) = serials k a l ++ serials k a m. Proof. apply flat_map_app. Qed.
Definition arrived_at (a : baddr) (l : list obs) : list inbound :=
  flat_map (fun x => match x with OArrive b _ i => if baddr_eqb b a then [i] else [] | _ => [] end) l.
Lemma arrived_at_app a l m : arrived_at a (l ++ m) = arrived_at a l ++ arrived_at a m. Proof. apply flat_map_app. Qed.
Lemma serials_count k a l : length (serials k a l) = length (filter (answersb k) (arrived_at a l)).
Proof.
  induction l as [|x l IH]; [reflexivity|]. change (x :: l) with ([x] ++ l). rewrite serials_app, arrived_at_app, filter_app, !app_length, IH. f_equal.
  destruct x; try reflexivity. unfold serials, arrived_at. cbn [flat_map]. rewrite !app_nil_r. destruct (baddr_eqb a0 a); [|reflexivity]. cbn [andb filter].
  destruct (answersb k i); reflexivity.
Qed.
Lemma unread_none a c : forallb unread c = true -> arrived_at a c = [].
Proof. induction c as [|x c IH]; auto. cbn [forallb]. intros H. apply andb_prop in H as [H1 H2]. unfold arrived_at in *. cbn [flat_map]. rewrite (IH H2). destruct x; try reflexivity. discriminate. Qed.
Lemma trans_inbound E s e s' a : trans E s e s' -> exists c, s_log s' = s_log s ++ c /\ arrived_at a c = inbounds (nets a [e]).
Proof.
  intros T.
  assert (Q : forall c, nets a [e] = [] -> s_log s' = s_log s ++ c -> forallb unread c = true -> exists c, s_log s' = s_log s ++ c /\ arrived_at a c = inbounds (nets a [e])).
  { intros c X Y Z. exists c. split; auto. rewrite X. now apply unread_none. }
  assert (Q0 : inbounds (nets a [e]) = [] -> s_log s' = s_log s -> exists c, s_log s' = s_log s ++ c /\ arrived_at a c = inbounds (nets a [e])).
  { intros X Y. exists []. rewrite app_nil_r, X. auto. }
  assert (Z : forall t c, nets a [e] = [] -> s' = stop t -> s_log t = s_log s ++ c -> forallb unread c = true -> exists c, s_log s' = s_log s ++ c /\ arrived_at a c = inbounds (nets a [e])).
  { intros t c X -> Y U. apply (Q (c ++ stop_log t)); auto; [rewrite stop_log_eq, Y, <- app_assoc; reflexivity|]. rewrite forallb_app, U. apply unread_stop. }
  assert (D : forall t c, nets a [e] = [] -> s_log t = s_log s ++ c -> forallb unread c = true -> (exists d, s_log s' = s_log t ++ d /\ forallb unread d = true) -> exists c, s_log s' = s_log s ++ c /\ arrived_at a c = inbounds (nets a [e])).
  { intros t c X Y U (d & Y' & U'). apply (Q (c ++ d)); auto; [rewrite Y', Y, <- app_assoc; reflexivity|]. rewrite forallb_app, U. exact U'. }
  destruct T; try (apply Q0; reflexivity);
    try (eapply Q; [reflexivity|reflexivity|first [reflexivity|apply unread_ends]]; fail);
    try (eapply Z; [reflexivity|reflexivity|reflexivity|reflexivity]; fail);
    try (apply (Z s []); [reflexivity|reflexivity|symmetry; apply app_nil_r|reflexivity]);
    try (eapply D; [reflexivity|apply taken_log| |eapply fwd_unread; eassumption]; cbn; apply unread_cancel).
  - eapply Q; [reflexivity|reflexivity|]. destruct (ch_engine (s_ch s h)); [reflexivity|apply unread_cancel].
  - eapply Q; [reflexivity|apply taken_log|]. cbn. apply unread_cancel.
  - eapply Q; [reflexivity|apply taken_log|]. cbn. apply unread_cancel.
  - refine (D _ _ eq_refl _ _ (fwd_unread _ _ _ _ _ H6)); [rewrite moved_log; apply taken_log|]. cbn. apply unread_cancel.
  - refine (D _ _ eq_refl _ _ (fwd_unread _ _ _ _ _ H1)); [rewrite moved_log; reflexivity|reflexivity].
  - refine (D _ _ eq_refl _ _ (fwd_unread _ _ _ _ _ H0)); [rewrite moved_log; reflexivity|reflexivity].
  - refine (D _ _ eq_refl _ _ (sent_unread _ _ _ _ _ H0)); reflexivity.
  - refine (D _ _ eq_refl _ _ (sent_unread _ _ _ _ _ H4)); reflexivity.
  - apply Q0; [|reflexivity]. unfold nets. cbn [flat_map]. destruct (baddr_eqb a0 a); [|reflexivity]. unfold inbounds. cbn [flat_map app].
    destruct H1 as [-> |[_ [-> |(mc & -> & ->)]]]; reflexivity.
  - apply Q0; [|reflexivity]. unfold nets. cbn [flat_map]. now destruct (baddr_eqb a0 a).
  - apply Q0; [|reflexivity]. unfold nets. cbn [flat_map]. destruct (baddr_eqb a0 a); [|reflexivity]. unfold inbounds. cbn. now rewrite H2.
  - eexists. split; [reflexivity|]. unfold nets, arrived_at, inbounds. cbn [flat_map app]. destruct (baddr_eqb a0 a); [|reflexivity]. cbn [flat_map app]. rewrite H2. reflexivity.
  - eexists. split; [reflexivity|]. unfold nets, arrived_at, inbounds. cbn [flat_map app]. destruct (baddr_eqb a0 a); [|reflexivity]. cbn [flat_map app]. rewrite H2. reflexivity.
  - eexists. split; [reflexivity|]. unfold nets, arrived_at, inbounds. cbn [flat_map app]. destruct (baddr_eqb a0 a); [|reflexivity]. cbn [flat_map app]. rewrite H2. reflexivity.
Qed.
Lemma reach_inbounds E h s a : reach E h s -> arrived_at a (s_log s) = inbounds (nets a h).
Proof.
  revert s. induction h as [|e h IH] using rev_ind; intros s H.
  - injection H as <-. reflexivity.
  - unfold reach in H. rewrite run_app in H. destruct (run E sys_init h) as [s1|] eqn:R; [|discriminate]. cbn [run] in H.
    destruct (step E s1 e) as [s2|] eqn:ST; [|discriminate]. injection H as <-.
    destruct (trans_inbound E s1 e s2 a (step_trans E s1 e s2 (reach_wf E h s1 R) ST)) as (c & -> & X).
    rewrite arrived_at_app, (IH s1 R), X. unfold nets, inbounds. now rewrite flat_map_app, flat_map_app.
Qed.
Fixpoint place_of (n : nat) (l : list nat) : nat := match l with [] => 0%nat | m :: r => if (m =? n)%nat then 0%nat else S (place_of n r) end.
Lemma place_of_nth n l : In n l -> nth_error l (place_of n l) = Some n.
Proof. induction l as [|m r IH]; [contradiction|]. cbn. destruct (Nat.eqb_spec m n) as [->|X]; [reflexivity|]. intros [Y|Y]; [contradiction|auto]. Qed.
Lemma place_of_initial n l r : In n l -> place_of n (l ++ r) = place_of n l.
Proof. induction l as [|m l IH]; [contradiction|]. cbn. destruct (Nat.eqb_spec m n) as [->|X]; [reflexivity|]. intros [Y|Y]; [contradiction|]. f_equal. auto. Qed.
Lemma arrive_uniq E h s a b ser i j : reach E h s -> In (OArrive a ser i) (s_log s) -> In (OArrive b ser j) (s_log s) -> a = b /\ i = j.
Proof.
  intros H A B. pose proof (reach_entries E h s H) as En. apply in_split in A as (l1 & l2 & El). rewrite El in B. apply in_app_iff in B as [B|[B|B]].
  - destruct (En _ _ _ El) as (_ & X). now elim (X b j).
  - injection B as -> ->. auto.
  - apply in_split in B as (l3 & l4 & ->). destruct (En (l1 ++ OArrive a ser i :: l3) (OArrive b ser j) l4) as (_ & X); [now rewrite El, <- app_assoc|].
    elim (X a i). apply in_elt.
Qed.
(** The source of the request an event answers: the first of its kind for the first event, and so on. *)
Definition kin (k : kind) (t : list (option nat * outbound)) : list (option nat * outbound) := filter (fun x => is_kind k (kind_of (snd x))) t.
Definition source (x : option (option nat * outbound)) : nat := match x with Some (Some n, _) => n | _ => 0%nat end.
Definition where_arrived (ser : nat) (l : list obs) : option baddr :=
  match find (fun x => match x with OArrive _ ser' _ => (ser' =? ser)%nat | _ => false end) l with Some (OArrive a _ _) => Some a | _ => None end.
Lemma where_spec E h s a ser i : reach E h s -> In (OArrive a ser i) (s_log s) -> where_arrived ser (s_log s) = Some a.
Proof.
  intros H A. unfold where_arrived. destruct (find _ (s_log s)) as [x|] eqn:F.
  - apply find_some in F as [F1 F2]. destruct x; try discriminate. apply Nat.eqb_eq in F2. subst ser0. now destruct (arrive_uniq E h s _ _ _ _ _ H A F1) as [-> _].
  - eapply find_none in F; [|exact A]. cbn in F. now rewrite Nat.eqb_refl in F.
Qed.
Definition reply_of (k : kind) (l : list obs) (rd : baddr -> list (option nat * outbound)) (ser : nat) : nat :=
  match where_arrived ser l with Some a => source (nth_error (kin k (rd a)) (place_of ser (serials k a l))) | None => 0%nat end.
(** The requests the broker has read of connection [a]. *)
Definition read_of E io (got : list event -> baddr -> list msg_cmd) g a := firstn (length (got g a)) (taken_up (attempts E a (io a) g)).
Lemma Forall2_initial {A B} (R : A -> B -> Prop) l m m1 : Forall2 R l m -> initial m1 m -> Forall2 R (firstn (length m1) l) m1.
Proof.
  intros F [r ->]. revert l F. induction m1 as [|y m1 IH]; intros l F; [constructor|]. inversion F; subst. cbn. constructor; auto.
Qed.
Lemma initial_firstn {A} (l m : list A) n : initial l m -> (n <= length l)%nat -> firstn n m = firstn n l.
Proof. intros [r ->] L. rewrite firstn_app. replace (n - length l)%nat with 0%nat by lia. apply app_nil_r. Qed.
Lemma Forall2_len {A B} (R : A -> B -> Prop) l m : Forall2 R l m -> length l = length m.
Proof. induction 1; cbn; auto. Qed.
Lemma initial_len {A} (l m : list A) : initial l m -> (length l <= length m)%nat.
Proof. intros [r ->]. rewrite app_length. lia. Qed.
Lemma firstn_initial {A} (l : list A) n m : (n <= m)%nat -> initial (firstn n l) (firstn m l).
Proof. intros L. exists (skipn n (firstn m l)). rewrite <- (firstn_skipn n (firstn m l)) at 1. now rewrite firstn_firstn, Nat.min_l. Qed.
Lemma kin_initial k l m : initial l m -> initial (kin k l) (kin k m).
Proof. intros [r ->]. unfold kin. rewrite filter_app. now eexists. Qed.
Lemma along E io h s got g1 g2 t : reach E h s -> (forall a, clock_fits a h) -> (forall a m o, In (m, o) (queued a (s_log s)) -> sendable_request o) ->
  read_along E io h got -> h = g1 ++ g2 -> reach E g1 t ->
  (forall a, clock_fits a g1) /\ (forall a m o, In (m, o) (queued a (s_log t)) -> sendable_request o) /\
  forall a, Forall2 request_of (read_of E io got g1 a) (got g1 a) /\ initial (read_of E io got g1 a) (read_of E io got h a).
Proof.
  intros H Ck Q Ra Eh Ht.
  assert (Rt : run E t g2 = Some s) by (subst h; unfold reach in H, Ht; now rewrite run_app, Ht in H).
  destruct (run_log E g2 t s (reach_all E g1 t Ht) Rt) as [c L].
  assert (Ck1 : forall a, clock_fits a g1) by (intros a now ok X; apply (Ck a now ok); subst h; apply in_app_iff; now left).
  assert (Q1 : forall a m o, In (m, o) (queued a (s_log t)) -> sendable_request o) by (intros a m o X; apply (Q a m o); rewrite L, queued_app; apply in_app_iff; now left).
  split; [exact Ck1|]. split; [exact Q1|]. intros a.
  destruct (got_taken E io g1 t (got g1) a Ht (Ck1 a) (Q1 a)) as (mcs & I & F); [intros b; exact (proj1 (Ra g1 g2 Eh b))|].
  destruct (got_taken E io h s (got h) a H (Ck a) (Q a)) as (mcs' & I' & F'); [intros b; exact (proj1 (Ra h [] (eq_sym (app_nil_r h)) b))|].
  split; [exact (Forall2_initial _ _ _ _ F I)|]. unfold read_of.
  assert (It : initial (taken_up (attempts E a (io a) g1)) (taken_up (attempts E a (io a) h))).
  { subst h. unfold attempts. rewrite (offers_app E a (io a) g1 0 sys_init t g2 Ht), send_all_app. unfold taken_up. rewrite filter_app, map_app. now eexists. }
  rewrite <- (initial_firstn _ _ _ It); [|rewrite (Forall2_len _ _ _ F); now apply initial_len].
  apply firstn_initial, initial_len. exact (proj2 (Ra g1 g2 Eh a)).
Qed.
Lemma kin_count k l m : Forall2 request_of l m -> Forall2 request_of (kin k l) (filter (fun mc => is_kind k (command_kind mc)) m).
Proof.
  apply Forall2_filter. intros x y (now & _ & D). now rewrite (denotes_kind _ _ _ D).
Qed.
Lemma firstn_In {A} n (l : list A) x : In x (firstn n l) -> In x l.
Proof. intros X. rewrite <- (firstn_skipn n l). apply in_app_iff. now left. Qed.
Lemma written_log E h s a x : reach E h s -> In x (written a (s_log s)) -> kind_of (snd x) <> None -> exists n ok, fst x = Some n /\ In (OWrite a (Some n) (snd x) ok) (s_log s).
Proof.
  intros H W K. unfold written in W. apply in_flat_map in W as (y & Hy & W). destruct y as [| | | | | | |b sr o ok| | | | | | | | | | |]; try contradiction.
  destruct (baddr_eqb b a) eqn:B; [|contradiction]. apply baddr_eqb_spec in B. subst b. destruct W as [<-|[]]. cbn [fst snd] in *.
  destruct sr as [n|]; [eauto|]. apply (C40_engine_writes_pongs E h s) in Hy; [|exact H]. subst o. now elim K.
Qed.
Lemma nodup_firstn {A} n (l : list A) : NoDup l -> NoDup (firstn n l).
Proof. intros N. rewrite <- (firstn_skipn n l) in N. now apply NoDup_app_l in N. Qed.
Lemma nodup_kin k l : NoDup (srcs l) -> NoDup (srcs (kin k l)) /\ forall n, In n (srcs (kin k l)) -> In n (srcs l).
Proof.
  induction l as [|x l IH]; [auto|]. change (x :: l) with ([x] ++ l). rewrite srcs_app. intros N. destruct (IH (nodup_app_r _ _ N)) as [I1 I2].
  unfold kin. rewrite filter_app. fold (kin k l). rewrite srcs_app. cbn [filter]. destruct (is_kind k (kind_of (snd x))); [|split; [exact I1|intros n Y; apply in_app_iff; auto]].
  split; [|intros n Y; apply in_app_iff in Y as [Y|Y]; apply in_app_iff; auto]. destruct x as [[n|] o]; [|exact I1]. cbn in *. inversion N; subst. constructor; auto.
Qed.
Lemma forward_one E h s n a o b o' : reach E h s -> In (OForward n a o) (s_log s) -> In (OForward n b o') (s_log s) -> a = b.
Proof.
  intros H A B. pose proof (reach_entries E h s H) as En. apply in_split in A as (l1 & l2 & El). rewrite El in B. apply in_app_iff in B as [B|[B|B]].
  - destruct (En _ _ _ El) as (_ & _ & _ & F & _). now elim (F _ _ B).
  - congruence.
  - apply in_split in B as (l3 & l4 & ->). destruct (En (l1 ++ OForward n a o :: l3) (OForward n b o') l4) as (_ & _ & _ & F & _); [now rewrite El, <- app_assoc|].
    elim (F a o). apply in_elt.
Qed.
(** The [reply_of] an event that arrives: the request it is counted for has been written
    and read on that connection. *)
Lemma reply_read E io h s got k : reach E h s -> (forall a, clock_fits a h) -> (forall a m o, In (m, o) (queued a (s_log s)) -> sendable_request o) ->
  read_along E io h got -> answers_reads k h got ->
  forall l1 a ser i l2, s_log s = l1 ++ OArrive a ser i :: l2 -> answers i k ->
  exists n o ok mc, reply_of k (s_log s) (read_of E io got h) ser = n /\ In (OWrite a (Some n) o ok) l1 /\ kind_of o = Some k /\
    nth_error (kin k (read_of E io got h a)) (place_of ser (serials k a (s_log s))) = Some (Some n, o) /\
    In mc (got h a) /\ request_of (Some n, o) mc.
Proof.
  intros H Ck Q Ra Ar l1 a ser i l2 El An.
  destruct (arrival_moment E h s H l1 a ser i l2 El) as (g1 & g2 & t & Eh & Ht & Lt).
  destruct (along E io h s got g1 g2 t H Ck Q Ra Eh Ht) as (Ck1 & Q1 & F). destruct (F a) as [F1 F2].
  pose proof (Ar g1 g2 Eh a) as C. rewrite <- (reach_inbounds E g1 t a Ht), <- (serials_count k a _), <- (Forall2_len _ _ _ (kin_count k _ _ F1)) in C.
  set (j := place_of ser (serials k a (s_log s))).
  assert (Hs : In ser (serials k a (s_log t))).
  { rewrite Lt, serials_app. apply in_app_iff. right. cbn. rewrite baddr_eqb_refl. apply answersb_spec in An. rewrite An. now left. }
  assert (Ej : j = place_of ser (serials k a (s_log t))).
  { unfold j. replace (s_log s) with (s_log t ++ l2) by (rewrite El, Lt, <- app_assoc; reflexivity). rewrite serials_app. now apply place_of_initial. }
  assert (Lj : (j < length (kin k (read_of E io got g1 a)))%nat).
  { rewrite Ej. eapply Nat.lt_le_trans; [|exact C]. apply nth_error_Some. rewrite place_of_nth; [discriminate|exact Hs]. }
  destruct (nth_error (kin k (read_of E io got g1 a)) j) as [x|] eqn:X; [|apply nth_error_None in X; lia].
  pose proof (nth_error_In _ _ X) as Ix. unfold kin in Ix. apply filter_In in Ix as [Ix Kx]. apply is_kind_spec in Kx.
  assert (Wx : In x (written a (s_log t))) by (apply (taken_written E a io g1 t Ht (Ck1 a) (Q1 a)), (firstn_In (length (got g1 a))); exact Ix).
  destruct (written_log E g1 t a x Ht Wx) as (n & ok & Fx & W); [congruence|].
  destruct x as [src o]. cbn [fst snd] in *. subst src.
  assert (X' : nth_error (kin k (read_of E io got h a)) j = Some (Some n, o)) by (eapply initial_nth; [apply kin_initial; exact F2|exact X]).
  assert (W' : In (OWrite a (Some n) o ok) l1) by (rewrite Lt in W; apply in_app_iff in W as [W|[W|[]]]; [exact W|discriminate]).
  apply In_nth_error in Ix as [p Ix]. destruct (nth_error (got g1 a) p) as [mc|] eqn:G.
  2:{ apply nth_error_None in G. rewrite <- (Forall2_len _ _ _ F1) in G. apply nth_error_None in G. congruence. }
  destruct (Forall2_nth _ _ _ _ _ F1 G) as (y & Y & D). assert (y = (Some n, o)) as -> by congruence.
  exists n, o, ok, mc. split.
  - unfold reply_of. rewrite (where_spec E h s a ser i H) by (rewrite El; apply in_elt). fold j. now rewrite X'.
  - split; [exact W'|]. split; [exact Kx|]. split; [exact X'|]. split; [|exact D]. apply (initial_nth _ (got h a)) in G; [now apply nth_error_In in G|]. exact (proj2 (Ra g1 g2 Eh a)).
Qed.
Lemma reply_honest E io h s got k : reach E h s -> (forall a, clock_fits a h) -> (forall a m o, In (m, o) (queued a (s_log s)) -> sendable_request o) ->
  read_along E io h got -> answers_reads k h got -> honest_of k (s_log s) (reply_of k (s_log s) (read_of E io got h)).
Proof.
  intros H Ck Q Ra Ar. pose proof (reply_read E io h s got k H Ck Q Ra Ar) as RR. split.
  - intros l1 a ser i l2 El An. destruct (RR l1 a ser i l2 El An) as (n & o & ok & mc & -> & W & K & _). eauto.
  - intros a i b j ser ser' Ha Hb An Bn Er. pose proof Ha as Ha'. pose proof Hb as Hb'.
    apply in_split in Ha as (l1 & l2 & E1), Hb as (l3 & l4 & E2).
    destruct (RR l1 a ser i l2 E1 An) as (n & o & ok & mc & R1 & W & K & X & _). destruct (RR l3 b ser' j l4 E2 Bn) as (n' & o' & ok' & mc' & R2 & W' & K' & X' & _).
    assert (n' = n) as -> by congruence.
    assert (Fw : forall c q okc lx ly, s_log s = lx ++ ly -> In (OWrite c (Some n) q okc) lx -> In (OForward n c q) (s_log s)).
    { intros c q okc lx ly El Y. apply in_split in Y as (z1 & z2 & ->). rewrite <- app_assoc in El. pose proof (reach_entries E h s H _ _ _ El) as Z. cbn in Z. rewrite El. apply in_app_iff. now left. }
    assert (a = b) as <- by (eapply (forward_one E h s n); [exact H|eapply Fw; [exact E1|exact W]|eapply Fw; [exact E2|exact W']]).
    assert (P : place_of ser (serials k a (s_log s)) = place_of ser' (serials k a (s_log s))).
    { refine (srcs_nth _ _ _ _ n o o' X X'). apply nodup_kin. unfold read_of. destruct (forwards_written E h s a H) as [Ia Na].
      assert (N : NoDup (srcs (taken_up (attempts E a (io a) h)))).
      { apply nodup_taken. destruct (attempts_frames E a (io a) h s H (Ck a) (Q a)) as [-> _]. destruct Ia as [r Ia]. rewrite Ia, srcs_app in Na. now apply NoDup_app_l in Na. }
      rewrite <- (firstn_skipn (length (got h a)) (taken_up (attempts E a (io a) h))), srcs_app in N. now apply NoDup_app_l in N. }
    assert (In_s : forall sr ii, In (OArrive a sr ii) (s_log s) -> answers ii k -> In sr (serials k a (s_log s))).
    { intros sr ii Y Z. unfold serials. apply in_flat_map. eexists. split; [exact Y|]. cbn. rewrite baddr_eqb_refl. apply answersb_spec in Z. rewrite Z. now left. }
    pose proof (place_of_nth ser _ (In_s _ _ Ha' An)) as P1. pose proof (place_of_nth ser' _ (In_s _ _ Hb' Bn)) as P2. rewrite P in P1. congruence.
Qed.
Lemma completed_read E io h s got k n o ser i : reach E h s ->
  (forall a, clock_fits a h) -> (forall a m q, In (m, q) (queued a (s_log s)) -> sendable_request q) ->
  read_along E io h got -> answers_reads k h got -> no_collision_of k (s_log s) ->
  requested (s_log s) n o -> kind_of o = Some k -> In (OAnswer n ser i) (s_log s) ->
  exists a i0 o' mc, In (OArrive a ser i0) (s_log s) /\ seen_as a i0 i /\ In (Some n, o') (read_of E io got h a) /\ In mc (got h a) /\ says (e_cfg E) o mc.
Proof.
  intros H Ck Q Ra Ar Nc Rq K A.
  pose proof (C35_one_kind E h s k _ H Nc (reply_honest E io h s got k H Ck Q Ra Ar) n o ser i Rq K A) as Rn.
  apply in_split in A as (l1 & l2 & El). destruct (C34_answer_of_its_kind E h s _ _ _ _ _ H El) as (l0 & a & i0 & k0 & -> & Ha & Se & Hf & An).
  assert (Uq : forall o', requested (s_log s) n o' -> o' = o) by (intros o' [c' R']; destruct Rq as [c R]; exact (proj2 (r_uniq s (v_r E s (reach_all E h s H)) c' n o' c o R' R))).
  assert (Up : forall m q, requested l0 m q -> requested (s_log s) m q) by (intros m q [c R]; exists c; rewrite El; apply in_app_iff; left; apply in_app_iff; now left).
  assert (k0 = k) as -> by (destruct Hf as (o0 & G1 & G2 & _); rewrite (Uq o0 (Up _ _ G1)) in G2; congruence).
  rewrite (seen_answers _ _ _ _ Se) in An. pose proof Ha as Ha'. apply in_split in Ha as (p1 & p2 & ->).
  destruct (reply_read E io h s got k H Ck Q Ra Ar p1 a ser i0 (p2 ++ [OHandle a ser i0] ++ OAnswer n ser i :: l2)) as (n' & o' & ok & mc & R' & W & K' & Nx & Im & now & Hn & D); [rewrite El, <- !app_assoc; reflexivity|exact An|].
  rewrite Rn in R'. subst n'. exists a, i0, o', mc. split; [rewrite El; apply in_app_iff; left; apply in_app_iff; now left|]. split; [exact Se|].
  split; [apply nth_error_In in Nx; now apply filter_In in Nx|]. split; [exact Im|]. exists now. split; [exact Hn|].
  cbn [snd] in D. assert (W' : In (OWrite a (Some n) o' ok) (s_log s)) by (rewrite El, <- !app_assoc; apply in_app_iff; now left).
  destruct (C39_commands_unchanged E h s a n o' ok H W') as (q & R & X). apply Uq in R. subst q. destruct o; try (rewrite <- X; exact D). destruct X as (d & m & ->). eauto.
Qed.
(** A request that completes: the broker that sent the answer has read that very request
    (a connect with the address and credentials filled in), on the connection on which
    the answer arrived. *)
Theorem C77_completed_means_read : forall E io h s got k n o ser i, reach E h s ->
  (forall a, clock_fits a h) -> (forall a m q, In (m, q) (queued a (s_log s)) -> sendable_request q) ->
  read_along E io h got -> answers_reads k h got -> no_collision_of k (s_log s) ->
  requested (s_log s) n o -> kind_of o = Some k -> In (OAnswer n ser i) (s_log s) ->
  exists a i0 mc, In (OArrive a ser i0) (s_log s) /\ seen_as a i0 i /\ In mc (got h a) /\ says (e_cfg E) o mc.
Proof.
  intros E io h s got k n o ser i H Ck Q Ra Ar Nc Rq K A. destruct (completed_read E io h s got k n o ser i H Ck Q Ra Ar Nc Rq K A) as (a & i0 & o' & mc & X1 & X2 & _ & X3 & X4). eauto 8.
Qed.
(** Connects never collide: while one is in flight no request is taken. *)
Lemma connects_apart E h s : reach E h s -> no_collision_of KConnect (s_log s).
Proof.
  intros H l1 n l2 m o El _ _ Fl. destruct (reach_entries E h s H _ _ _ El) as (_ & _ & X & _). destruct (flight_waiting l1 m KConnect Fl) as (key & W & K).
  assert (key = kconnect); [|subst key; exact (X m W)]. destruct Fl as (q & _ & Q & _). specialize (K q Q). destruct q as [| | |[]| | | | | |]; try discriminate. injection K as <-. reflexivity.
Qed.
(** Acknowledgements: [ack] returns Ok, and the broker has read an acknowledgement of that
    consumer for that very message, and no other. *)
Theorem C77_acknowledged : forall E io h s got id name cs mid n ser i, reach E h s ->
  (forall a, clock_fits a h) -> (forall a m q, In (m, q) (queued a (s_log s)) -> sendable_request q) ->
  read_along E io h got -> answers_reads KAck h got -> no_collision_of KAck (s_log s) ->
  requested (s_log s) n (OAck [mk_ack id mid (request_id cs)]) -> In (OAnswer n ser i) (s_log s) ->
  exec (ack id name cs mid) [Resolved i] = ([OAck [mk_ack id mid (request_id cs)]], Some (Ok tt)) /\
  exists a mc sub, In mc (got h a) /\ carries mc 10 10 sub /\ int_field 1 sub id /\ int_field 8 sub (request_id cs) /\ get_ms 3 sub = [mid].
Proof.
  intros E io h s got id name cs mid n ser i H Ck Q Ra Ar Nc Rq A. split.
  - pose proof (C24_ack id name cs mid) as (_ & _ & X & _). destruct (X i []) as [X'|[_ X']]; [exact X'|].
    exfalso. apply X'. apply in_split in A as (l1 & l2 & El). destruct (C34_answer_of_its_kind E h s _ _ _ _ _ H El) as (l0 & a & i0 & k & -> & _ & _ & (o & [c G1] & G2 & _) & An).
    assert (o = OAck [mk_ack id mid (request_id cs)]) as ->.
    { destruct Rq as [c' R]. refine (proj2 (r_uniq s (v_r E s (reach_all E h s H)) c n o c' _ _ R)). rewrite El. apply in_app_iff. left. apply in_app_iff. now left. }
    injection G2 as <-. unfold an_ack_receipt. destruct i; try contradiction. eauto.
  - destruct (C77_completed_means_read E io h s got KAck n _ ser i H Ck Q Ra Ar Nc Rq eq_refl A) as (a & i0 & mc & _ & _ & Im & now & _ & D).
    destruct D as (_ & sub & x & Hx & C & F1 & F8 & _ & G). injection Hx as <-. exists a, mc, sub. auto.
Qed.
(** ** Handshakes *)
Lemma subseq_common {A} (a r w : list A) : NoDup w -> subseq a w -> subseq r w -> (forall x, In x a -> In x r) -> subseq a r.
Proof.
  revert a r. induction w as [|y w IH]; intros a r Nd Sa Sr F.
  - inversion Sa; subst. constructor.
  - inversion Nd as [|? ? N1 N2]; subst. inversion Sa as [|? a' ? Sa'|? ? ? Sa']; subst; [constructor| |].
    + inversion Sr as [|? r' ? Sr'|? ? ? Sr']; subst.
      * destruct (F y); now left.
      * constructor. apply IH; auto. intros x X. destruct (F x (or_intror X)) as [<-|Y]; [|exact Y]. exfalso. apply N1. eapply subseq_in; [exact Sa'|exact X].
      * exfalso. apply N1. eapply subseq_in; [exact Sr'|]. apply F. now left.
    + inversion Sr as [|? r' ? Sr'|? ? ? Sr']; subst.
      * destruct a as [|x a]; [constructor|]. destruct (F x); now left.
      * constructor. apply IH; auto. intros x X. destruct (F x X) as [<-|Y]; [|exact Y]. exfalso. apply N1. eapply subseq_in; [exact Sa'|exact X].
      * apply IH; auto.
Qed.
Lemma subseq_srcs_mono w w' : subseq w w' -> subseq (srcs w) (srcs w').
Proof.
  induction 1 as [|[[n|] o] a b S IH|[[n|] o] a b S IH]; [constructor| | | |].
  - change (subseq (n :: srcs a) (n :: srcs b)). now constructor.
  - exact IH.
  - change (subseq (srcs a) (n :: srcs b)). now constructor.
  - exact IH.
Qed.
Lemma firstn_subseq {A} n (l : list A) : subseq (firstn n l) l.
Proof. apply initial_subseq. exists (skipn n l). now rewrite firstn_skipn. Qed.
(** If the broker has read every one of some requests of a client, it has read them in
    the order in which they were made. *)
Lemma read_in_order E io h s c a ps got : reach E h s -> subseq (map fst ps) (issued c (s_log s)) ->
  (forall n o, In (n, o) ps -> In (OIssue c n o) (s_log s) /\ exists o', In (Some n, o') (read_of E io got h a)) ->
  (forall b, clock_fits b h) -> (forall b n o, In (n, o) (queued b (s_log s)) -> sendable_request o) -> read_along E io h got ->
  says_all (e_cfg E) (map snd ps) (got h a).
Proof.
  intros H P2 Wr Ck Q Ra. destruct (along E io h s got h [] s H Ck Q Ra (eq_sym (app_nil_r h)) H) as (_ & _ & Al). destruct (Al a) as [M2 _].
  pose proof (v_r E s (reach_all E h s H)) as R.
  assert (Rw : forall b x, In x (read_of E io got h b) -> In x (written b (s_log s))) by (intros b x X; apply (taken_written E b io h s H (Ck b) (Q b)), (firstn_In (length (got h b))); exact X).
  assert (Lw : forall b n o, In (Some n, o) (written b (s_log s)) -> exists ok, In (OWrite b (Some n) o ok) (s_log s)).
  { intros b n o X. unfold written in X. apply in_flat_map in X as (y & Hy & X). destruct y as [| | | | | | |b' sr o0 ok| | | | | | | | | | |]; try contradiction.
    destruct (baddr_eqb b' b) eqn:B; [|contradiction]. apply baddr_eqb_spec in B. subst b'. destruct X as [[= -> ->]|[]]. eauto. }
  assert (Inw : forall n o ok, In (OWrite a (Some n) o ok) (s_log s) -> In n (wrote a (s_log s))).
  { intros n o ok X. unfold wrote. apply in_flat_map. eexists. split; [exact X|]. cbn. rewrite baddr_eqb_refl. now left. }
  assert (Sub : subseq (map fst ps) (wrote_for c a (s_log s))).
  { destruct (C39_wire_order E h s c a H) as [r O]. eapply (subseq_initial _ _ r).
    - rewrite <- O. apply NoDup_filter. eapply issued_nodup; eauto.
    - rewrite <- O. apply subseq_filter; [exact P2|]. intros n X. apply in_map_iff in X as ([n' o] & <- & X). destruct (Wr _ _ X) as [_ (o' & Y)]. destruct (Lw a n' o' (Rw a _ Y)) as [ok Y'].
      apply in_split in Y' as (l1 & l2 & El). pose proof (reach_entries E h s H _ _ _ El) as Z. cbn in Z. apply is_in_spec. unfold sent_to. apply in_flat_map.
      exists (OForward n' a o'). split; [rewrite El; apply in_app_iff; auto|]. rewrite baddr_eqb_refl. now left.
    - intros n X. apply in_map_iff in X as ([n' o] & <- & X). destruct (Wr _ _ X) as [Y (o' & Z)]. destruct (Lw a n' o' (Rw a _ Z)) as [ok Z']. cbn [fst]. apply filter_In. split; [exact (Inw n' o' ok Z')|]. apply is_in_spec. apply (proj2 (PropRoute.issued_in _ _ _)). exists o. exact Y. }
  unfold wrote_for in Sub. apply subseq_of_filter in Sub. rewrite <- srcs_written in Sub.
  assert (Sub' : subseq (map fst ps) (srcs (read_of E io got h a))).
  { apply (subseq_common _ _ (srcs (written a (s_log s)))); [| exact Sub| |].
    - destruct (forwards_written E h s a H) as [[r Ia] Na]. rewrite Ia, srcs_app in Na. now apply NoDup_app_l in Na.
    - apply subseq_srcs_mono. destruct (attempts_frames E a (io a) h s H (Ck a) (Q a)) as [<- _]. unfold read_of, taken_up. eapply subseq_trans; [apply firstn_subseq|]. apply subseq_map, filter_subseq.
    - intros n X. apply in_map_iff in X as ([n' o] & <- & X). destruct (Wr _ _ X) as [_ (o' & Z)]. unfold srcs. apply in_flat_map. exists (Some n', o'). split; [exact Z|now left]. }
  apply subseq_srcs in Sub' as (xs & X1 & X2).
  destruct (subseq_forall2 _ _ _ M2 _ X1) as (ys & Y1 & Y2). exists ys. split; [exact Y1|].
  assert (Fx : Forall2 (fun p x => In p ps /\ fst x = Some (fst p) /\ In x (written a (s_log s))) ps xs).
  { assert (G : forall qs zs, Forall2 (fun n x => fst x = Some n) (map fst qs) zs -> incl qs ps -> incl zs (written a (s_log s)) ->
      Forall2 (fun p x => In p ps /\ fst x = Some (fst p) /\ In x (written a (s_log s))) qs zs).
    { clear. induction qs as [|q qs IH]; intros zs F I1 I2; inversion F; subst; constructor.
      - split; [apply I1; now left|]. split; [assumption|apply I2; now left].
      - apply IH; auto; intros z Z; [apply I1|apply I2]; now right. }
    apply G; [exact X2|intros z Z; exact Z|]. intros z Z. apply Rw. eapply subseq_in; eauto. }
  clear - Fx Y2 H R Wr Lw. revert ys Y2. induction Fx as [|[n o] x ps' xs (A1 & A2 & A3) Fx IH]; intros ys Y2; inversion Y2 as [|? y ? ys' B1 B2]; subst; constructor; [|now apply IH].
  destruct x as [src o']. cbn [fst snd] in *. subst src. destruct B1 as (now & Hw & D). cbn [snd] in D. destruct (Lw a n o' A3) as [ok Z1].
  destruct (C39_commands_unchanged E h s a n o' ok H Z1) as (q & (c1 & Rq) & Fq).
  destruct (Wr n o A1) as [Io _]. destruct (r_uniq s R _ _ _ _ _ Io Rq) as [_ <-]. exists now. split; [exact Hw|].
  destruct o; try (rewrite Fq in D; exact D). destruct Fq as (d & m & ->). eauto.
Qed.
(** If the broker has read every one of these requests that goes to it, it has read them
    in the order in which they were made. *)
Lemma told_got E io h s c a made got : reach E h s -> newids h <= 2 ^ 64 -> initial made (requests c (s_log s)) ->
  (forall k n o, nth_error (issued c (s_log s)) k = Some n -> nth_error made k = Some o -> asks o = true -> exists b o', In (Some n, o') (read_of E io got h b)) ->
  (forall b, clock_fits b h) -> (forall b n o, In (n, o) (queued b (s_log s)) -> sendable_request o) -> read_along E io h got ->
  says_all (e_cfg E) (told (e_cfg E) a made) (got h a).
Proof.
  intros H Hn I W Ck Q Ra.
  pose proof (v_r E s (reach_all E h s H)) as R.
  assert (Rw : forall b x, In x (read_of E io got h b) -> In x (written b (s_log s))) by (intros b x X; apply (taken_written E b io h s H (Ck b) (Q b)), (firstn_In (length (got h b))); exact X).
  assert (Lw : forall b n o, In (Some n, o) (written b (s_log s)) -> exists ok, In (OWrite b (Some n) o ok) (s_log s)).
  { intros b n o X. unfold written in X. apply in_flat_map in X as (y & Hy & X). destruct y as [| | | | | | |b' sr o0 ok| | | | | | | | | | |]; try contradiction.
    destruct (baddr_eqb b' b) eqn:B; [|contradiction]. apply baddr_eqb_spec in B. subst b'. destruct X as [[= -> ->]|[]]. eauto. }
  destruct (told_pairs a made (goes (e_cfg E) (broker_address (e_cfg E)) made) (issued c (s_log s))) as (ps & P1 & P2 & P3).
  { apply goes_length. } { rewrite issued_requests. destruct I as [r ->]. rewrite app_length. lia. }
  unfold told. rewrite <- P1.
  assert (Go : forall k b, nth_error (goes (e_cfg E) (broker_address (e_cfg E)) made) k = Some b -> nth_error (goes (e_cfg E) (broker_address (e_cfg E)) (requests c (s_log s))) k = Some b).
  { intros k b X. destruct I as [r ->]. rewrite goes_app, nth_error_app1; auto. apply nth_error_Some. congruence. }
  assert (Wr : forall n o, In (n, o) ps -> In (OIssue c n o) (s_log s) /\ exists o', In (Some n, o') (read_of E io got h a)).
  { intros n o X. destruct (P3 n o X) as (k & K1 & K2 & K3 & K4). split.
    - pose proof (issue_nth c (s_log s) k) as Y. rewrite K1 in Y. rewrite (initial_nth _ _ _ _ I K2) in Y. exact Y.
    - destruct (W k n o K1 K2 K4) as (b & o' & Y). destruct (Lw b n o' (Rw b _ Y)) as [ok Z]. pose proof (C68_written_where E h s c k n b o' ok H Hn K1 Z) as G. rewrite (Go _ _ K3) in G. injection G as ->. eauto. }
  exact (read_in_order E io h s c a ps got H P2 Wr Ck Q Ra).
Qed.
(** A handshake that ends well has been read. *)
Lemma handshake_got E io h s c path rs made got : reach E h s -> newids h <= 2 ^ 64 ->
  (forall o v, In (o, v) path -> v NotQueued <> Ok tt /\ (asks o = true -> forall r, v r = Ok tt -> exists i, r = Resolved i)) ->
  walk path rs = (made, Some (Ok tt)) -> got_replies (s_log s) c made rs ->
  (forall b, clock_fits b h) -> (forall b n o, In (n, o) (queued b (s_log s)) -> sendable_request o) -> read_along E io h got ->
  (forall o v k, In (o, v) path -> asks o = true -> kind_of o = Some k -> answers_reads k h got /\ no_collision_of k (s_log s)) ->
  forall a, says_all (e_cfg E) (told (e_cfg E) a (map fst path)) (got h a).
Proof.
  intros H Hn F W [G1 G2] Ck Q Ra An a. destruct (walk_all path rs made F W) as [-> R].
  apply (told_got E io h s c a (map fst path) got); auto. intros k n o K1 K2 K3. destruct (R k o K2 K3) as [i Ri].
  destruct (G2 k n o _ K1 K2 K3 Ri) as [ser A]. pose proof (nth_error_In _ _ K2) as K4. apply in_map_iff in K4 as ([o1 v] & Eo & K4). cbn in Eo. subst o1.
  assert (exists kd, kind_of o = Some kd) as [kd Kd] by (destruct o as [| | |[]| | | | | |]; try discriminate K3; cbn; eauto).
  destruct (An o v kd K4 K3 Kd) as [An1 An2].
  assert (Rq : requested (s_log s) n o). { exists c. pose proof (issue_nth c (s_log s) k) as Y. rewrite K1 in Y. rewrite (initial_nth _ _ _ _ G1 K2) in Y. exact Y. }
  destruct (completed_read E io h s got kd n o ser i H Ck Q Ra An1 An2 Rq Kd A) as (b & _ & o' & _ & _ & _ & X & _). eauto.
Qed.
(** Building a consumer has succeeded; the brokers answer what they have read, lookups and
    subscriptions are not in flight together. Whatever the transports do and whatever part
    of the bytes the brokers have read: the configured broker has read, in this order, a
    connect and a lookup of the topic; and the subscription with the consumer's id, topic
    and subscription name was read by the same broker or, if it named another one and
    asked for the proxy, after a connect and a lookup on the connection through the proxy. *)
Theorem C77_built_consumer : forall E io h s c id name topic sub permits rs made got, reach E h s -> newids h <= 2 ^ 64 ->
  exec (consumer_connect id name topic sub permits Client.fresh) rs = (made, Some (Ok tt)) -> got_replies (s_log s) c made rs ->
  (forall b, clock_fits b h) -> (forall b n o, In (n, o) (queued b (s_log s)) -> sendable_request o) -> read_along E io h got ->
  answers_reads KConnect h got -> answers_reads KLookup h got -> answers_reads KSubscribe h got ->
  no_collision_of KLookup (s_log s) -> no_collision_of KSubscribe (s_log s) ->
  match asks_proxy rs with
  | None => says_all (e_cfg E) [plain_connect; OLookup 0 topic; OSubscribe topic sub id 1 Shared] (got h (broker_address (e_cfg E)))
  | Some t =>
      says_all (e_cfg E) [plain_connect; OLookup 0 topic] (got h (broker_address (e_cfg E))) /\
      says_all (e_cfg E) [proxy_connect t; OLookup 1 topic; OSubscribe topic sub id 2 Shared] (got h (Proxy (base_url (broker_address (e_cfg E))) t))
  end.
Proof.
  intros E io h s c id name topic sub permits rs made got H Hn X G Ck Q Ra A1 A2 A3 N2 N3. rewrite C20_consumer_handshake in X.
  pose proof (connects_apart E h s H) as N1.
  assert (Kd : forall p o v k, In (o, v) p -> (p = direct_steps topic \/ (exists t, p = proxied_steps topic t) \/ exists rid, p = subscribe_steps id topic sub permits rid) ->
    asks o = true -> kind_of o = Some k -> answers_reads k h got /\ no_collision_of k (s_log s)).
  { intros p o v k Y [-> |[[t ->]|[rid ->]]] As K; cbn [In direct_steps proxied_steps subscribe_steps] in Y; repeat (destruct Y as [Y|Y]; [injection Y as <- <-; cbn in K; try discriminate As; injection K as <-; auto|]); contradiction. }
  destruct (asks_proxy rs) as [t|].
  - assert (M : forall a, says_all (e_cfg E) (told (e_cfg E) a (map fst (proxied_steps topic t ++ subscribe_steps id topic sub permits 2))) (got h a)).
    { apply (handshake_got E io h s c _ rs made got H Hn); auto.
      - intros o v Y. apply in_app_iff in Y as [Y|Y]; [eapply proxied_fine; eauto|eapply subscribe_fine; eauto].
      - intros o v k Y. apply in_app_iff in Y as [Y|Y]; eapply Kd; eauto. }
    unfold told in M. split; [specialize (M (broker_address (e_cfg E)))|specialize (M (Proxy (base_url (broker_address (e_cfg E))) t))];
      unfold broker_address in *; cbn in M; rewrite ?bytes_eqb_refl in M; cbn in M; exact M.
  - assert (M : forall a, says_all (e_cfg E) (told (e_cfg E) a (map fst (direct_steps topic ++ subscribe_steps id topic sub permits 1))) (got h a)).
    { apply (handshake_got E io h s c _ rs made got H Hn); auto.
      - intros o v Y. apply in_app_iff in Y as [Y|Y]; [eapply direct_fine; eauto|eapply subscribe_fine; eauto].
      - intros o v k Y. apply in_app_iff in Y as [Y|Y]; eapply Kd; eauto. }
    specialize (M (broker_address (e_cfg E))). unfold told, broker_address in M. cbn in M. rewrite ?bytes_eqb_refl in M. cbn in M. exact M.
Qed.
(** Likewise for a producer, ending with its registration under its id and name. *)
Theorem C77_built_producer : forall E io h s c id name topic rs made got, reach E h s -> newids h <= 2 ^ 64 ->
  exec (producer_connect id name topic Client.fresh) rs = (made, Some (Ok tt)) -> got_replies (s_log s) c made rs ->
  (forall b, clock_fits b h) -> (forall b n o, In (n, o) (queued b (s_log s)) -> sendable_request o) -> read_along E io h got ->
  answers_reads KConnect h got -> answers_reads KLookup h got -> answers_reads KProducer h got ->
  no_collision_of KLookup (s_log s) -> no_collision_of KProducer (s_log s) ->
  match asks_proxy rs with
  | None => says_all (e_cfg E) [plain_connect; OLookup 0 topic; OProducer topic id 1 (Some name)] (got h (broker_address (e_cfg E)))
  | Some t =>
      says_all (e_cfg E) [plain_connect; OLookup 0 topic] (got h (broker_address (e_cfg E))) /\
      says_all (e_cfg E) [proxy_connect t; OLookup 1 topic; OProducer topic id 2 (Some name)] (got h (Proxy (base_url (broker_address (e_cfg E))) t))
  end.
Proof.
  intros E io h s c id name topic rs made got H Hn X G Ck Q Ra A1 A2 A3 N2 N3. rewrite C20_producer_handshake in X.
  pose proof (connects_apart E h s H) as N1.
  assert (Kd : forall p o v k, In (o, v) p -> (p = direct_steps topic \/ (exists t, p = proxied_steps topic t) \/ exists rid, p = producer_steps id name topic rid) ->
    asks o = true -> kind_of o = Some k -> answers_reads k h got /\ no_collision_of k (s_log s)).
  { intros p o v k Y [-> |[[t ->]|[rid ->]]] As K; cbn [In direct_steps proxied_steps producer_steps] in Y; repeat (destruct Y as [Y|Y]; [injection Y as <- <-; cbn in K; try discriminate As; injection K as <-; auto|]); contradiction. }
  destruct (asks_proxy rs) as [t|].
  - assert (M : forall a, says_all (e_cfg E) (told (e_cfg E) a (map fst (proxied_steps topic t ++ producer_steps id name topic 2))) (got h a)).
    { apply (handshake_got E io h s c _ rs made got H Hn); auto.
      - intros o v Y. apply in_app_iff in Y as [Y|Y]; [eapply proxied_fine; eauto|eapply producer_fine; eauto].
      - intros o v k Y. apply in_app_iff in Y as [Y|Y]; eapply Kd; eauto. }
    unfold told in M. split; [specialize (M (broker_address (e_cfg E)))|specialize (M (Proxy (base_url (broker_address (e_cfg E))) t))];
      unfold broker_address in *; cbn in M; rewrite ?bytes_eqb_refl in M; cbn in M; exact M.
  - assert (M : forall a, says_all (e_cfg E) (told (e_cfg E) a (map fst (direct_steps topic ++ producer_steps id name topic 1))) (got h a)).
    { apply (handshake_got E io h s c _ rs made got H Hn); auto.
      - intros o v Y. apply in_app_iff in Y as [Y|Y]; [eapply direct_fine; eauto|eapply producer_fine; eauto].
      - intros o v k Y. apply in_app_iff in Y as [Y|Y]; eapply Kd; eauto. }
    specialize (M (broker_address (e_cfg E))). unfold told, broker_address in M. cbn in M. rewrite ?bytes_eqb_refl in M. cbn in M. exact M.
Qed.
Print Assumptions C77_completed_means_read.
Print Assumptions C77_acknowledged.
Print Assumptions C77_built_consumer.
Print Assumptions C77_built_producer.

(** * Cases *)
(** Brokers that read everything at once, throughout. *)
Lemma prefix_ok E io h s g1 g2 : reach E h s -> (forall a, writes_succeed E a (io a) h) -> (forall a m o, In (m, o) (queued a (s_log s)) -> sendable_request o) -> h = g1 ++ g2 ->
  exists t, reach E g1 t /\ (forall a, writes_succeed E a (io a) g1) /\ (forall a m o, In (m, o) (queued a (s_log t)) -> sendable_request o).
Proof.
  intros H Ws Q ->. unfold reach in H. rewrite run_app in H. destruct (run E sys_init g1) as [t|] eqn:R; [|discriminate]. exists t. split; [exact R|].
  destruct (run_log E g2 t s (reach_all E g1 t R) H) as [c L]. split.
  - intros a. destruct (Ws a) as [A B]. split; [|intros now ok X; apply (B now ok), in_app_iff; now left].
    intros x X. apply A. unfold attempts. rewrite (offers_app E a (io a) g1 0 sys_init t g2 R), send_all_app. apply in_app_iff. now left.
  - intros a m o X. apply (Q a m o). rewrite L, queued_app. apply in_app_iff. now left.
Qed.
Lemma everything_along E io h s : reach E h s -> (forall a, writes_succeed E a (io a) h) -> (forall a m o, In (m, o) (queued a (s_log s)) -> sendable_request o) ->
  read_along E io h (read_everything E io).
Proof.
  intros H Ws Q g1 g2 Eh a. destruct (prefix_ok E io h s g1 g2 H Ws Q Eh) as (t & Ht & Wt & Qt).
  destruct (read_all E io g1 t Ht Wt Qt) as [B _]. split; [exact (B a)|].
  destruct (offers_frames E a (io a) h s H (proj2 (Ws a)) (Q a)) as (mcs & F1 & F2 & _).
  assert (Rd : read_everything E io h a = mcs).
  { unfold read_everything. rewrite (all_frames (e_oc E) mcs (map of_frame (offers E a (io a) 0 sys_init h))); [|exact F1|now apply (Forall2_map_r (fun mc b => encode (e_oc E) mc = Ok b) of_frame)|cbn; rewrite app_nil_r; apply (all_ok_sent _ (proj1 (Ws a)))].
    clear. induction mcs as [|m l IH]; [reflexivity|]. cbn. now rewrite IH. }
  rewrite Rd. destruct (some_frames (e_oc E) mcs (map of_frame (offers E a (io a) 0 sys_init h)) [wire E a (io a) g1] F1) as (g & G1 & G2).
  - now apply (Forall2_map_r (fun mc b => encode (e_oc E) mc = Ok b) of_frame).
  - cbn [concat]. rewrite app_nil_r. unfold wire. destruct (all_ok_sent _ (proj1 (Wt a))) as [_ X]. unfold attempts. rewrite X. rewrite Eh, (offers_app E a (io a) g1 0 sys_init t g2 Ht), map_app, concat_app. now eexists.
  - assert (read_everything E io g1 a = g) as ->; [|exact G2]. unfold read_everything. rewrite G1. clear. induction g as [|m l IH]; [reflexivity|]. cbn. now rewrite IH.
Qed.
Lemma everything_answers E io h s k : reach E h s -> (forall a, writes_succeed E a (io a) h) -> (forall a m o, In (m, o) (queued a (s_log s)) -> sendable_request o) ->
  (forall g1 g2 t a, h = g1 ++ g2 -> reach E g1 t -> (length (filter (answersb k) (inbounds (nets a g1))) <= length (kin k (written a (s_log t))))%nat) ->
  answers_reads k h (read_everything E io).
Proof.
  intros H Ws Q C g1 g2 Eh a. destruct (prefix_ok E io h s g1 g2 H Ws Q Eh) as (t & Ht & Wt & Qt).
  destruct (read_all E io g1 t Ht Wt Qt) as [_ F]. rewrite <- (Forall2_len _ _ _ (kin_count k _ _ (F a))). exact (C g1 g2 t a Eh Ht).
Qed.
(** A consumer acknowledges twice, each time waiting for the answer. *)
Definition u_mid (e : Z) : message := [(1, PInt 5); (2, PInt e)].
Definition u_a0 : outbound := OAck [mk_ack 0 (u_mid 6) 0].
Definition u_a1 : outbound := OAck [mk_ack 0 (u_mid 7) 1].
Definition u_b0 : outbound := OAck [mk_ack 1 (u_mid 8) 0].
Definition u_one : list event := x_reg2 ++ x_connect 0%nat ++
  [EvIssue 0%nat u_a0; EvClient 0%nat; EvWrite xA 0 true; EvNet xA (f_ack 0); EvConn xA;
   EvIssue 0%nat u_a1; EvClient 0%nat; EvWrite xA 0 true; EvNet xA (f_ack 0); EvConn xA].
(** Two consumers acknowledge at the same time: the second's acknowledgement is taken
    but not written when the answer to the first arrives. *)
Definition u_two : list event := x_reg2 ++ x_connect 0%nat ++
  [EvIssue 0%nat u_a0; EvClient 0%nat; EvWrite xA 0 true; EvIssue 1%nat u_b0; EvClient 1%nat; EvNet xA (f_ack 0); EvConn xA].
Definition u_one_log : list obs := Eval vm_compute in log_of u_one.
Definition u_two_log : list obs := Eval vm_compute in log_of u_two.
Lemma u_one_eq : log_of u_one = u_one_log. Proof. vm_compute. reflexivity. Qed.
Lemma u_two_eq : log_of u_two = u_two_log. Proof. vm_compute. reflexivity. Qed.
Ltac u_log Hh := destruct Hh as [-> | ->]; [rewrite u_one_eq in *; unfold u_one_log in *|rewrite u_two_eq in *; unfold u_two_log in *].
Lemma u_reach h : h = u_one \/ h = u_two -> exists s, reach xE h s /\ s_log s = log_of h.
Proof.
  intros Hh. unfold reach. destruct (run xE sys_init h) as [s|] eqn:R; [exists s; split; [reflexivity|]; unfold log_of; now rewrite R|].
  exfalso. assert (X : log_of h = []) by (unfold log_of; now rewrite R). destruct Hh as [-> | ->]; [rewrite u_one_eq in X|rewrite u_two_eq in X]; discriminate X.
Qed.
Lemma u_writes h : h = u_one \/ h = u_two -> forall a, writes_succeed xE a (z_io a) h.
Proof.
  intros Hh a. split; [|intros now ok X; destruct Hh as [-> | ->]; unfold u_one, u_two, x_reg2, x_connect in X; cbn [app In] in X; PropReceipt.walk X; injection X as _ <- _; reflexivity].
  destruct (baddr_dec a xA) as [->|N]; [destruct Hh as [-> | ->]; apply all_ok_check; vm_compute; reflexivity|].
  intros x X. exfalso. rewrite no_offers in X; [destruct X|]. clear X. intros now ok Y. destruct Hh as [-> | ->]; unfold u_one, u_two, x_reg2, x_connect in Y; cbn [app In] in Y; PropReceipt.walk Y; injection Y; intros _ _ Y'; apply N; symmetry; exact Y'.
Qed.
Ltac u_fit := split; [cbn [req_ok]; apply Forall_cons; [|apply Forall_nil]; split; [vm_compute; reflexivity|]; split; [split; vm_compute; reflexivity|vm_compute; reflexivity]|split; [vm_compute; reflexivity|discriminate]].
Lemma u_sendable h : h = u_one \/ h = u_two -> forall a m o, In (m, o) (queued a (log_of h)) -> sendable_request o.
Proof.
  intros Hh a m o X. unfold queued in X. apply in_flat_map in X as (x & Hx & Hy).
  assert (S1 : sendable_request u_a0) by (unfold u_a0; u_fit).
  assert (S2 : sendable_request u_a1) by (unfold u_a1; u_fit).
  assert (S3 : sendable_request u_b0) by (unfold u_b0; u_fit).
  assert (S4 : sendable_request z_c) by z_fit.
  destruct x as [| | | | |n b o1| | | | | | | | | | | | |]; try contradiction.
  - assert (O : o1 = u_a0 \/ o1 = u_a1 \/ o1 = u_b0 \/ o1 = z_c).
    { u_log Hh; cbn [In] in Hx; PropReceipt.walk Hx; injection Hx as _ _ <-; auto. }
    destruct (baddr_eqb b a); [|contradiction]. destruct Hy as [[= _ <-]|[]]. destruct O as [-> |[-> |[-> | ->]]]; auto.
  - exfalso. u_log Hh; cbn [In] in Hx; PropReceipt.walk Hx.
Qed.
Definition covered (k : kind) (h : list event) (n : nat) : bool :=
  match run xE sys_init (firstn n h) with
  | Some t => (length (filter (answersb k) (inbounds (nets xA (firstn n h)))) <=? length (kin k (written xA (s_log t))))%nat
  | None => true end.
Lemma u_answers k h : k = KAck \/ k = KConnect -> h = u_one \/ h = u_two -> answers_reads k h (read_everything xE z_io).
Proof.
  intros Hk Hh. destruct (u_reach h Hh) as (s & R & L). pose proof (u_sendable h Hh) as Q. rewrite <- L in Q.
  apply (everything_answers xE z_io h s k R (u_writes h Hh) Q). intros g1 g2 t a Eh Ht.
  destruct (baddr_dec a xA) as [->|N].
  - assert (C : forallb (covered k h) (seq 0 (S (length h))) = true) by (destruct Hk as [-> | ->]; destruct Hh as [-> | ->]; vm_compute; reflexivity).
    rewrite forallb_forall in C. specialize (C (length g1)). unfold covered in C. rewrite Eh in C. rewrite firstn_app, firstn_all, Nat.sub_diag, app_nil_r in C. unfold reach in Ht. rewrite Ht in C.
    apply Nat.leb_le, C, in_seq. rewrite app_length. lia.
  - assert (Z : nets a g1 = []); [|rewrite Z; cbn; lia].
    assert (Z : forall e x b, In e h -> e = EvNet b x -> b = xA).
    { intros e x b X ->. destruct Hh as [-> | ->]; unfold u_one, u_two, x_reg2, x_connect in X; cbn [app In] in X; PropReceipt.walk X; injection X as <- _; reflexivity. }
    assert (Y : forall e x b, In e g1 -> e = EvNet b x -> b = xA) by (intros e x b X; apply Z; rewrite Eh; apply in_app_iff; now left).
    clear - Y N. induction g1 as [|e g IH]; [reflexivity|]. unfold nets in *. cbn [flat_map]. rewrite IH by (intros; eapply Y; [right; eassumption|eassumption]).
    destruct e; try reflexivity. rewrite (Y _ x a0 (or_introl eq_refl) eq_refl). destruct (baddr_eqb xA a) eqn:B; [|reflexivity]. apply baddr_eqb_spec in B. now elim N.
Qed.
(** Both acknowledgements complete; all hypotheses hold. *)
Example C77_meets : exists s s1 i1 s2 i2, reach xE u_one s /\ (forall a, clock_fits a u_one) /\
  (forall a m q, In (m, q) (queued a (s_log s)) -> sendable_request q) /\
  read_along xE z_io u_one (read_everything xE z_io) /\ answers_reads KAck u_one (read_everything xE z_io) /\ no_collision_of KAck (s_log s) /\
  requested (s_log s) 1%nat u_a0 /\ requested (s_log s) 2%nat u_a1 /\ In (OAnswer 1%nat s1 i1) (s_log s) /\ In (OAnswer 2%nat s2 i2) (s_log s).
Proof.
  assert (Hh : u_one = u_one \/ u_one = u_two) by auto. destruct (u_reach u_one Hh) as (s & R & L). exists s, 1%nat, (InAckReceipt 0 0), 2%nat, (InAckReceipt 0 0).
  pose proof (u_sendable u_one Hh) as Q. rewrite <- L in Q. split; [exact R|]. split; [intros a; exact (proj2 (u_writes _ Hh a))|]. split; [exact Q|].
  split; [exact (everything_along xE z_io u_one s R (u_writes _ Hh) Q)|]. split; [apply u_answers; auto|]. rewrite L, u_one_eq. split; [|unfold u_one_log; repeat split; try (exists 0%nat); cbn [In]; tauto].
  intros l1 n l2 m o El [h1 Hr] Hk (o' & [h2 Q1] & Q2 & Q3 & Q4 & Q5). unfold u_one_log in El. splits El.
  all: cbn in Hr, Q1; vm_compute in Q4, Q5.
  all: repeat match goal with H : _ \/ _ |- _ => destruct H as [H|H]; try discriminate H | H : False |- _ => destruct H end; try lia.
  all: repeat match goal with H : OIssue _ _ _ = OIssue _ _ _ |- _ => injection H; clear H; intros; subst end; try lia; cbn in Hk, Q2; try congruence; try tauto.
Qed.
(** Two acknowledgements at the same time: the brokers behave, the second completes with
    success, and it has not been read, not even written. *)
Theorem C77_needs_no_collision : exists E io h s got n o ser i, reach E h s /\ (forall rank, as_polled E rank h) /\
  (forall a, writes_succeed E a (io a) h) /\ (forall a m q, In (m, q) (queued a (s_log s)) -> sendable_request q) /\
  read_along E io h got /\ (forall k, answers_reads k h got) /\
  requested (s_log s) n o /\ kind_of o = Some KAck /\ In (OAnswer n ser i) (s_log s) /\
  forall a mc now, In mc (got h a) -> ~ denotes now o mc.
Proof.
  assert (Hh : u_two = u_one \/ u_two = u_two) by auto. destruct (u_reach u_two Hh) as (s & R & L).
  exists xE, z_io, u_two, s, (read_everything xE z_io), 2%nat, u_b0, 1%nat, (InAckReceipt 0 0).
  pose proof (u_sendable u_two Hh) as Q. rewrite <- L in Q. split; [exact R|]. split; [apply orderly_polled; vm_compute; reflexivity|]. split; [now apply u_writes|]. split; [exact Q|].
  split; [exact (everything_along xE z_io u_two s R (u_writes _ Hh) Q)|]. split; [|split; [|split; [reflexivity|split]]].
  - intros k g1 g2 Eh a. destruct (kind_eqb k KAck) eqn:Kk; [apply kind_eqb_spec in Kk; apply (u_answers k u_two (or_introl Kk) Hh g1 g2 Eh a)|].
    destruct (kind_eqb k KConnect) eqn:Kc; [apply kind_eqb_spec in Kc; apply (u_answers k u_two (or_intror Kc) Hh g1 g2 Eh a)|].
    assert (Z : filter (answersb k) (inbounds (nets a g1)) = []); [|rewrite Z; cbn; lia].
    assert (Z : forall i, In i (inbounds (nets a u_two)) -> i = InAckReceipt 0 0 \/ i = InConnected).
    { intros i X. destruct (baddr_dec a xA) as [->|N].
      - assert (Y : inbounds (nets xA u_two) = [InConnected; InAckReceipt 0 0]) by (vm_compute; reflexivity). rewrite Y in X. destruct X as [<-|[<-|[]]]; auto.
      - exfalso. unfold nets, u_two, x_reg2, x_connect in X. cbn [app flat_map] in X. destruct (baddr_eqb xA a) eqn:B; [apply baddr_eqb_spec in B; now elim N|]. contradiction. }
    assert (Y : forall i, In i (inbounds (nets a g1)) -> i = InAckReceipt 0 0 \/ i = InConnected).
    { intros i X. apply Z. rewrite Eh. unfold nets, inbounds in *. rewrite !flat_map_app. apply in_app_iff. now left. }
    clear - Y Kk Kc. induction (inbounds (nets a g1)) as [|i l IH]; [reflexivity|]. cbn [filter].
    destruct (Y i (or_introl eq_refl)) as [-> | ->]; destruct k; try discriminate; apply IH; intros j J; apply Y; now right.
  - exists 1%nat. rewrite L, u_two_eq. unfold u_two_log. cbn [In]. tauto.
  - rewrite L, u_two_eq. unfold u_two_log. cbn [In]. tauto.
  - intros a mc now Hi D. destruct (read_all xE z_io u_two s R (u_writes _ Hh) Q) as [_ F]. specialize (F a). rewrite L in F. revert Hi F. generalize (read_everything xE z_io u_two a). intros g Hi F.
    assert (W : written a (log_of u_two) = if baddr_eqb xA a then [(Some 0%nat, z_c); (Some 1%nat, u_a0)] else []).
    { rewrite u_two_eq. unfold u_two_log, written. cbn [flat_map]. change (Direct _) with xA. destruct (baddr_eqb xA a); reflexivity. }
    rewrite W in F. destruct (baddr_eqb xA a).
    + inversion F as [|? m0 ? ? D0 F1 E0 E1]; subst. inversion F1 as [|? m1 ? ? D1 F2 E2 E3]; subst. inversion F2; subst.
      destruct D as (_ & sub & p & Hp & (C1 & C2 & _) & P1 & _). destruct Hi as [<-|[<-|[]]].
      * destruct D0 as (t & _ & _ & s0 & (X & _) & _). congruence.
      * destruct D1 as (t & _ & _ & s1 & p1 & Hp1 & (X & Y & _) & P2 & _). assert (s1 = sub) by congruence. subst s1. cbn in Hp, Hp1. injection Hp as <-. injection Hp1 as <-. unfold int_field in *. rewrite P1 in P2. discriminate.
    + inversion F; subst. contradiction.
Qed.
Print Assumptions C77_needs_no_collision.
(** The hypotheses of C77_built_consumer hold of a consumer built behind the proxy, over
    two connections (the run of C68_meets). *)
Definition covered_on (a : baddr) (k : kind) (h : list event) (n : nat) : bool :=
  match run xE sys_init (firstn n h) with
  | Some t => (length (filter (answersb k) (inbounds (nets a (firstn n h)))) <=? length (kin k (written a (s_log t))))%nat
  | None => true end.
Lemma answers_check k h s : reach xE h s -> (forall a, writes_succeed xE a (z_io a) h) -> (forall a m o, In (m, o) (queued a (s_log s)) -> sendable_request o) ->
  (forall a x, In (EvNet a x) h -> a = xA \/ a = xP) ->
  forallb (covered_on xA k h) (seq 0 (S (length h))) = true -> forallb (covered_on xP k h) (seq 0 (S (length h))) = true ->
  answers_reads k h (read_everything xE z_io).
Proof.
  intros R Ws Q Z C1 C2. apply (everything_answers xE z_io h s k R Ws Q). intros g1 g2 t a Eh Ht.
  assert (Two : a = xA \/ a = xP -> (length (filter (answersb k) (inbounds (nets a g1))) <= length (kin k (written a (s_log t))))%nat).
  { intros Ha. assert (C : forallb (covered_on a k h) (seq 0 (S (length h))) = true) by (destruct Ha as [-> | ->]; assumption).
    rewrite forallb_forall in C. specialize (C (length g1)). unfold covered_on in C. rewrite Eh in C. rewrite firstn_app, firstn_all, Nat.sub_diag, app_nil_r in C. unfold reach in Ht. rewrite Ht in C.
    apply Nat.leb_le, C, in_seq. rewrite app_length. lia. }
  destruct (baddr_dec a xA) as [Ea|N1]; [auto|]. destruct (baddr_dec a xP) as [Ea|N2]; [auto|].
  assert (Zn : nets a g1 = []); [|rewrite Zn; cbn; lia].
  assert (Y : forall b x, In (EvNet b x) g1 -> b = xA \/ b = xP) by (intros b x X; apply (Z b x); rewrite Eh; apply in_app_iff; now left).
  clear - Y N1 N2. induction g1 as [|e g IH]; [reflexivity|]. unfold nets in *. cbn [flat_map]. rewrite IH by (intros b x X; apply (Y b x); now right).
  destruct e; try reflexivity. destruct (baddr_eqb a0 a) eqn:B; [|reflexivity]. apply baddr_eqb_spec in B. subst a0. destruct (Y a x (or_introl eq_refl)); contradiction.
Qed.
Example C77_built_meets : exists s, reach xE x_build s /\ newids x_build <= 2 ^ 64 /\
  exec (consumer_connect 0 (str "n") (str "t") (str "s") 250 Client.fresh) x_rs = (x_made, Some (Ok tt)) /\ got_replies (s_log s) 0%nat x_made x_rs /\
  (forall b, clock_fits b x_build) /\ (forall b n o, In (n, o) (queued b (s_log s)) -> sendable_request o) /\
  read_along xE z_io x_build (read_everything xE z_io) /\
  answers_reads KConnect x_build (read_everything xE z_io) /\ answers_reads KLookup x_build (read_everything xE z_io) /\ answers_reads KSubscribe x_build (read_everything xE z_io) /\
  no_collision_of KLookup (s_log s) /\ no_collision_of KSubscribe (s_log s) /\ asks_proxy x_rs = Some (str "u").
Proof.
  assert (exists s, reach xE x_build s /\ s_log s = x_log) as (s & R & L).
  { rewrite <- x_log_eq. apply log_reach. rewrite x_log_eq. discriminate. }
  assert (Ws : forall a, writes_succeed xE a (z_io a) x_build) by (intros a; exact (x_writes a)).
  assert (Q : forall a m o, In (m, o) (queued a (s_log s)) -> sendable_request o) by (rewrite L; exact x_sendable).
  assert (A : forall k, k = KConnect \/ k = KLookup \/ k = KSubscribe -> answers_reads k x_build (read_everything xE z_io)).
  { intros k Hk. apply (answers_check k x_build s R Ws Q).
    - intros b x X. unfold x_build, x_connect in X; cbn [app In] in X; PropReceipt.walk X; injection X as <- _; auto.
    - destruct Hk as [-> |[-> | ->]]; vm_compute; reflexivity.
    - destruct Hk as [-> |[-> | ->]]; vm_compute; reflexivity. }
  exists s. split; [exact R|]. split; [vm_compute; discriminate|]. split; [exact x_made_eq|]. split; [rewrite L; exact x_replies|].
  split; [intros b; exact (proj2 (Ws b))|]. split; [exact Q|]. split; [exact (everything_along xE z_io x_build s R Ws Q)|].
  split; [auto|]. split; [auto|]. split; [auto|]. rewrite L. split; [|split; [|reflexivity]]; intros l1 n l2 m o El Hr Hk Hf; eapply x_no_collision; eassumption.
Qed.
