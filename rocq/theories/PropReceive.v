(** C88: as long as nothing has failed, all that has arrived can be received. *)
From Verif Require Import Bytes Errors Wire Proto Codec Address Message SpecCodec SpecMessage Consumer SpecConsumer Client SpecKeys SpecClient Engine SpecEngine SpecEngine2 EngineFacts EngineInv EngineReq EngineEv EngineConn EngineLog EngineView EngineQueue EngineRoute EngineNet EngineGate EngineLife EngineEx SpecTurn TurnFacts SpecStack SpecAnswered SpecLoop SpecRest SpecEnd SpecBuild ConsumerFacts SpecOwed SpecFinish SpecServe SpecGroup PropConsumer PropFlow PropMessage PropClient PropEngine PropEngine2 PropEngine3 PropTurn PropReceipt PropAnswered PropStart PropLoop PropStack PropRoute PropDeliver PropOwed PropEnd PropRest PropBuild PropFinish PropServe PropGroup.
Open Scope nat_scope.

(** The answers of a continuation are no messages. *)
Lemma helped_apart E will s h s2 : helped E will s h s2 -> helped E (fun i => will i /\ forall d, i <> InMessage d) s h s2.
Proof.
  induction 1 as [s|s e s1 h2 s2 W S _ IH|s a mc i s1 h2 s2 Sd To Wl Ow S _ IH]; [constructor|eapply helped_task; eauto|].
  eapply helped_answer; eauto. split; [exact Wl|]. intros d ->. destruct Ow as (l1 & n & o & ok & l2 & k & _ & _ & _ & An & _). exact An.
Qed.
Lemma helped_newids E will s h s2 : helped E will s h s2 -> forall g, newids (g ++ h) = newids g.
Proof.
  induction 1 as [s|s e s1 h2 s2 W S _ IH|s a mc i s1 h2 s2 Sd To Wl Ow S _ IH]; intros g; [now rewrite app_nil_r| |].
  - assert (Eg : g ++ e :: h2 = (g ++ [e]) ++ h2) by (rewrite <- app_assoc; reflexivity). rewrite Eg, IH, newids_snoc.
    assert (N : is_newid e = false) by (destruct e; try contradiction; reflexivity). rewrite N. apply N.add_0_r.
  - assert (Eg : g ++ EvNet a (IFrame mc) :: h2 = (g ++ [EvNet a (IFrame mc)]) ++ h2) by (rewrite <- app_assoc; reflexivity). rewrite Eg, IH, newids_snoc. apply N.add_0_r.
Qed.
Lemma receives_newids c m g : newids (g ++ repeat (EvRecv c) m) = newids g.
Proof.
  revert g. induction m as [|m IH]; intros g; cbn [repeat]; [now rewrite app_nil_r|].
  assert (Eg : g ++ EvRecv c :: repeat (EvRecv c) m = (g ++ [EvRecv c]) ++ repeat (EvRecv c) m) by (rewrite <- app_assoc; reflexivity).
  rewrite Eg, IH, newids_snoc. apply N.add_0_r.
Qed.
(** A client takes all that waits in its channel. *)
Lemma receive_all E rank c q : forall h s, reach E h s -> as_polled E rank h -> unharmed E h -> ch_client (s_ch s c) = true -> ch_use (s_ch s c) = true -> ch_down (s_ch s c) = q ->
  exists s3, run E s (repeat (EvRecv c) (length q)) = Some s3 /\ reach E (h ++ repeat (EvRecv c) (length q)) s3 /\ as_polled E rank (h ++ repeat (EvRecv c) (length q)) /\ unharmed E (h ++ repeat (EvRecv c) (length q)) /\
    s_log s3 = s_log s ++ map (OGot c) q /\ ch_client (s_ch s3 c) = true /\ ch_use (s_ch s3 c) = true /\ ch_down (s_ch s3 c) = [].
Proof.
  induction q as [|i q IH]; intros h s H Po U C1 C2 D.
  - exists s. cbn [length repeat run map]. rewrite !app_nil_r. auto 10.
  - set (s1 := say (upd_ch s c (ch_set_down q)) [OGot c i]).
    assert (S1 : step E s (EvRecv c) = Some s1) by (cbn [step]; rewrite C1, C2, D; reflexivity).
    assert (H1 : reach E (h ++ [EvRecv c]) s1) by (apply (reach_app E h s [_] s1 H); cbn [run]; now rewrite S1).
    assert (Ch : s_ch s1 c = ch_set_down q (s_ch s c)) by (unfold s1, say, upd_ch, set_ch; cbn [s_ch with_ch with_log]; now rewrite ?Nat.eqb_refl).
    destruct (IH (h ++ [EvRecv c]) s1 H1) as (s3 & R3 & H3 & Po3 & U3 & L3 & E1 & E2 & E3).
    + exact (polled_snoc E rank h (EvRecv c) s Po H Logic.I).
    + apply (unharmed_snoc E h s _ H U); [exact (fun x => x)|intros b x Y; discriminate Y|].
      intros b [Y|[Y|[(mc' & Y & Z)|(now & io & o & r & rest & Y & _)]]]; discriminate Y.
    + rewrite Ch. exact C1.
    + rewrite Ch. exact C2.
    + rewrite Ch. reflexivity.
    + assert (Eh : h ++ repeat (EvRecv c) (length (i :: q)) = (h ++ [EvRecv c]) ++ repeat (EvRecv c) (length q)) by (rewrite <- app_assoc; reflexivity).
      exists s3. rewrite Eh. split; [cbn [length repeat run]; rewrite S1; exact R3|]. repeat (split; [assumption|]).
      split; [rewrite L3; unfold s1; cbn [s_log say]; rewrite <- app_assoc; reflexivity|auto].
Qed.
Lemma gots_app c a b : gots c (a ++ b) = gots c a ++ gots c b. Proof. apply flat_map_app. Qed.
Lemma gots_taken c q : gots c (map (OGot c) q) = q.
Proof. induction q as [|i q IH]; [reflexivity|]. unfold gots in *. cbn [map flat_map]. rewrite Nat.eqb_refl, IH. reflexivity. Qed.
Lemma arrivals_cat a u v : SpecEngine.arrivals a (u ++ v) = SpecEngine.arrivals a u ++ SpecEngine.arrivals a v. Proof. apply flat_map_app. Qed.
Lemma handles_taken a c q : handles a (map (OGot c) q) = [] /\ SpecEngine.arrivals a (map (OGot c) q) = [].
Proof. induction q as [|i q [A B]]; split; auto. Qed.

(** What holds when the continuation has come to rest. *)
Lemma settled_point E will rank h s c id : some_answer will -> reach E h s -> as_polled E rank h -> unharmed E h -> sensible E (s_log s) -> held c id s ->
  exists h2 s2, helped E will s h2 s2 /\ reach E (h ++ h2) s2 /\ as_polled E rank (h ++ h2) /\ unharmed E (h ++ h2) /\ newids (h ++ h2) = newids h /\ ~ In OStop (s_log s2) /\ held c id s2 /\
    (exists d, s_log s2 = s_log s ++ d /\ (forall b n o, ~ In (OIssue b n o) d) /\ forall b ser x, ~ In (OArrive b ser (InMessage x)) d) /\
    forall a, In (ODial a true) (s_log s2) -> (exists k, get_conn a (s_conns s2) = Some k) /\ handles a (s_log s2) = SpecEngine.arrivals a (s_log s2).
Proof.
  intros Wi H Po U Se (Rg & C1 & C2).
  destruct (C85_can_always_finish E will rank h s Wi H Po U Se) as (h2 & s2 & R2 & H2 & Po2 & A2 & U2 & Se2 & Ns & Nl & An & Rq & Fin).
  destruct (helped_adds E _ s h2 s2 (helped_apart E will s h2 s2 R2) h c H C1 C2) as [(d & Ld & Nd & Ad) [D1 D2]].
  assert (Rg2 : In (c, id) (registered (s_log s2))) by (rewrite Ld; unfold registered; rewrite flat_map_app; apply in_app_iff; now left).
  exists h2, s2. repeat (split; [assumption|]). split; [exact (helped_newids E will s h2 s2 R2 h)|]. split; [exact Ns|]. split; [split; auto|]. split.
  - exists d. split; [exact Ld|]. split; [exact Nd|]. intros b ser x X. exact (proj2 (Ad _ _ _ X) x eq_refl).
  - intros a Da. pose proof (C84_no_connect_left E rank _ s2 H2 Po2 A2 Ns Nl An) as Nc.
    destruct (C82_at_rest E rank _ s2 H2 Po2 A2) as [[X _]|(_ & _ & [(m & b & r & _ & X)|(_ & _ & _ & _ & Op)])]; [contradiction|elim (Nc m X)|].
    destruct (Op ltac:(intros Y; rewrite Y in Rg2; exact Rg2) a Da) as [(k & K & _) Hd]. split; [now exists k|exact Hd].
Qed.

(** As long as nothing has failed: there is a continuation after which a client that keeps
    receiving has received everything it is owed, and the engine has taken everything that
    has arrived. *)
Theorem C88_everything_received : forall E will rank h s c id, some_answer will -> reach E h s -> as_polled E rank h -> unharmed E h -> sensible E (s_log s) -> held c id s -> (newids h <= 2 ^ 64)%N ->
  exists h2 s2 m s3, helped E will s h2 s2 /\ run E s2 (repeat (EvRecv c) m) = Some s3 /\ let h' := h ++ h2 ++ repeat (EvRecv c) m in
    reach E h' s3 /\ as_polled E rank h' /\ unharmed E h' /\ held c id s3 /\ (exists d, s_log s3 = s_log s ++ d) /\
    (forall a, In (ODial a true) (s_log s3) -> handles a (s_log s3) = SpecEngine.arrivals a (s_log s3)) /\
    Forall2 shown_as (SpecOwed.owed (broker_address (e_cfg E)) c (s_log s3)) (gots c (s_log s3)).
Proof.
  intros E will rank h s c id Wi H Po U Se He Hn.
  destruct (settled_point E will rank h s c id Wi H Po U Se He) as (h2 & s2 & R2 & H2 & Po2 & U2 & Nw & Ns & (Rg & C1 & C2) & (d & Ld & _) & Hd).
  destruct (receive_all E rank c (ch_down (s_ch s2 c)) (h ++ h2) s2 H2 Po2 U2 C1 C2 eq_refl) as (s3 & R3 & H3 & Po3 & U3 & L3 & D1 & D2 & D3).
  exists h2, s2, (length (ch_down (s_ch s2 c))), s3. split; [exact R2|]. split; [exact R3|]. intros h'. unfold h'. rewrite app_assoc. repeat (split; [assumption|]).
  split; [split; [rewrite L3; unfold registered; rewrite flat_map_app; apply in_app_iff; now left|auto]|].
  split; [exists (d ++ map (OGot c) (ch_down (s_ch s2 c))); now rewrite L3, Ld, app_assoc|]. split.
  - intros a Da. destruct (handles_taken a c (ch_down (s_ch s2 c))) as [A B]. rewrite L3, handles_app, arrivals_cat, A, B, !app_nil_r. apply Hd.
    rewrite L3 in Da. apply in_app_iff in Da as [Da|Da]; [exact Da|]. apply in_map_iff in Da as (x & Y & _). discriminate Y.
  - destruct (C71_gets_what_is_owed E _ s3 c H3 ltac:(rewrite receives_newids, Nw; exact Hn)) as (rest & F & Er). rewrite (Er D1), D3, app_nil_r in F. exact F.
Qed.
Print Assumptions C88_everything_received.

(** In particular every message that has arrived for a consumer from its broker by now:
    it is received, once, in order. *)
Theorem C88_messages_received : forall E will rank h s c id a, some_answer will -> reach E h s -> as_polled E rank h -> unharmed E h -> sensible E (s_log s) -> held c id s -> (newids h <= 2 ^ 64)%N ->
  only_after_subscribe c id (s_log s) ->
  (forall i j cr topic sub rid t, nth_error (requests c (s_log s)) i = Some (OSubscribe topic sub id rid t) -> nth_error (requests c (s_log s)) j = Some (OConnect cr) ->
    (i < j)%nat -> cn_addr cr = None) ->
  a = last (goes (e_cfg E) (broker_address (e_cfg E)) (requests c (s_log s))) (broker_address (e_cfg E)) -> In (ODial a true) (s_log s) ->
  exists h2 s2 m s3, helped E will s h2 s2 /\ run E s2 (repeat (EvRecv c) m) = Some s3 /\ (exists d, s_log s3 = s_log s ++ d) /\
    messages (gots c (s_log s3)) = messages_for id (SpecEngine.arrivals a (s_log s)).
Proof.
  intros E will rank h s c id a Wi H Po U Se He Hn Ca Ord Ea Da.
  destruct (settled_point E will rank h s c id Wi H Po U Se He) as (h2 & s2 & R2 & H2 & Po2 & U2 & Nw & Ns & (Rg & C1 & C2) & (d & Ld & Ni & Nm) & Hd).
  destruct (receive_all E rank c (ch_down (s_ch s2 c)) (h ++ h2) s2 H2 Po2 U2 C1 C2 eq_refl) as (s3 & R3 & H3 & Po3 & U3 & L3 & D1 & D2 & D3).
  exists h2, s2, (length (ch_down (s_ch s2 c))), s3. split; [exact R2|]. split; [exact R3|].
  split; [exists (d ++ map (OGot c) (ch_down (s_ch s2 c))); now rewrite L3, Ld, app_assoc|].
  assert (Rq : requests c (s_log s2) = requests c (s_log s)) by (rewrite Ld, requests_app, (proj2 (no_issue_picks c d Ni)); apply app_nil_r).
  destruct (Hd a ltac:(rewrite Ld; apply in_app_iff; now left)) as [[k K] Hq].
  assert (Rg' : In (OReg c id) (s_log s2)).
  { unfold registered in Rg. apply in_flat_map in Rg as (x & Hx & X). destruct x; try (destruct X; fail). destruct X as [[= -> ->]|[]]. exact Hx. }
  assert (Ca2 : only_after_subscribe c id (s_log s2)).
  { intros l1 b ser x l2 El Dx. rewrite Ld in El. assert (Nx : ~ In (OArrive b ser (InMessage x)) d) by apply Nm.
    destruct (app_eq_app _ _ _ _ El) as (r & [[E1 E2]|[-> E2]]).
    - destruct r as [|y r]; [cbn [app] in E2; elim Nx; rewrite <- E2; now left|]. cbn [app] in E2. injection E2 as <- E2. exact (Ca l1 b ser x r E1 Dx).
    - elim Nx. rewrite E2. apply in_elt. }
  pose proof (v_s E s2 (reach_all E _ s2 H2)) as Si. assert (Ph : s_phase s2 <> PStop) by (intros X; apply Ns, (i_stop s2 Si); exact X).
  pose proof (C69_all_delivered E _ s2 c id a k H2 ltac:(rewrite Nw; exact Hn) Rg' Ca2 ltac:(rewrite Rq; exact Ord) ltac:(rewrite Rq; exact Ea) Ph C1 K) as D.
  destruct (C38_taken_in_order E _ s2 a H2) as [_ Tk]. specialize (Tk k K Ph). rewrite Hq in Tk.
  assert (Z : messages_for id (map snd (k_n2e k)) = []).
  { rewrite <- unconnected_messages. rewrite <- (app_nil_r (SpecEngine.arrivals a (s_log s2))) in Tk at 1. apply app_inv_head in Tk. now rewrite <- Tk. }
  rewrite Z, app_nil_r in D. rewrite L3, gots_app, gots_taken.
  assert (Am : forall u v, messages (u ++ v) = messages u ++ messages v) by (intros; apply flat_map_app). rewrite Am, D, Ld, arrivals_cat, messages_for_app.
  assert (Y : messages_for id (SpecEngine.arrivals a d) = []).
  { clear - Nm. induction d as [|x d IH]; [reflexivity|].
    assert (Sx : SpecEngine.arrivals a (x :: d) = SpecEngine.arrivals a [x] ++ SpecEngine.arrivals a d) by (change (x :: d) with ([x] ++ d); apply flat_map_app).
    rewrite Sx, messages_for_app, IH, app_nil_r by (intros b ser y Y; apply (Nm b ser y); now right).
    destruct x; try reflexivity. unfold SpecEngine.arrivals. cbn [flat_map app]. destruct (baddr_eqb a0 a); [|reflexivity]. destruct i; try reflexivity. elim (Nm a0 ser d0). now left. }
  rewrite Y. apply app_nil_r.
Qed.
Print Assumptions C88_messages_received.

(** And the consumer's calls can return all their contents. *)
Lemma arrive_all {T} (decode : bytes -> option T) is : forall cs, SpecConsumer.quiet cs -> c_open cs = true ->
  exists cs1, crun decode cs (map Arrive is) = Some cs1 /\ SpecConsumer.quiet cs1 /\ c_open cs1 = true.
Proof.
  induction is as [|i is IH]; intros cs Q O; [exists cs; auto|].
  destruct (IH (with_queue cs (c_queue cs ++ [i]))) as (cs1 & R & Q1 & O1); [exact Q|exact O|].
  exists cs1. split; [cbn [map crun cstep]; rewrite O; exact R|auto].
Qed.
Lemma arrivals_arrive is : SpecConsumer.arrivals (map Arrive is) = is.
Proof. induction is as [|i is IH]; [reflexivity|]. unfold SpecConsumer.arrivals in *. cbn [map flat_map app]. now rewrite IH. Qed.
Theorem C88_all_returned : forall T (decode : bytes -> option T) E will rank h s c id a P hc cs, some_answer will -> reach E h s -> as_polled E rank h -> unharmed E h -> sensible E (s_log s) -> held c id s -> (newids h <= 2 ^ 64)%N ->
  only_after_subscribe c id (s_log s) ->
  (forall i j cr topic sub rid t, nth_error (requests c (s_log s)) i = Some (OSubscribe topic sub id rid t) -> nth_error (requests c (s_log s)) j = Some (OConnect cr) ->
    (i < j)%nat -> cn_addr cr = None) ->
  a = last (goes (e_cfg E) (broker_address (e_cfg E)) (requests c (s_log s))) (broker_address (e_cfg E)) -> In (ODial a true) (s_log s) ->
  only_next_message hc -> reaches decode P hc cs -> SpecConsumer.arrivals hc = gots c (s_log s) -> SpecConsumer.quiet cs -> c_open cs = true ->
  (forall d, In d (messages_for id (SpecEngine.arrivals a (s_log s))) -> exists ms, unpack decode d = Ok ms) ->
  exists h2 s2 m s3 hc2 cs2, helped E will s h2 s2 /\ run E s2 (repeat (EvRecv c) m) = Some s3 /\
    crun decode cs hc2 = Some cs2 /\ only_next_message hc2 /\ gots c (s_log s3) = gots c (s_log s) ++ SpecConsumer.arrivals hc2 /\ SpecConsumer.quiet cs2 /\
    returned (Consumer.c_log cs2) = stream decode (map InMessage (messages_for id (SpecEngine.arrivals a (s_log s)))).
Proof.
  intros T decode E will rank h s c id a P hc cs Wi H Po U Se He Hn Ca Ord Ea Da On Re Ar Q O De.
  destruct (C88_messages_received E will rank h s c id a Wi H Po U Se He Hn Ca Ord Ea Da) as (h2 & s2 & m & s3 & R2 & R3 & (d & Ld) & M).
  assert (G : gots c (s_log s3) = gots c (s_log s) ++ gots c d) by now rewrite Ld, gots_app.
  destruct (arrive_all decode (gots c d) cs Q O) as (cs1 & X1 & Q1 & O1).
  assert (Re1 : reaches decode P (hc ++ map Arrive (gots c d)) cs1) by (unfold reaches in *; rewrite crun_app, Re; exact X1).
  assert (Ar1 : SpecConsumer.arrivals (hc ++ map Arrive (gots c d)) = gots c (s_log s3)) by (rewrite ConsumerFacts.arrivals_app, Ar, arrivals_arrive; now symmetry).
  assert (Rc : forall x, In (InMessage x) (SpecConsumer.arrivals (hc ++ map Arrive (gots c d))) -> received (InMessage x) /\ exists ms, unpack decode x = Ok ms).
  { intros x X. rewrite Ar1 in X. assert (Y : In x (messages_for id (SpecEngine.arrivals a (s_log s)))).
    { rewrite <- M. unfold messages. apply in_flat_map. eexists. split; [exact X|now left]. }
    split; [|exact (De x Y)]. unfold messages_for in Y. apply in_flat_map in Y as (i & Hi & Y). destruct i; try (destruct Y; fail). destruct (d_cid d0 =? id)%N; [|destruct Y]. destruct Y as [->|[]].
    rewrite (reach_nets E h s a H) in Hi. unfold events in Hi. apply in_flat_map in Hi as (it & _ & Hi). destruct it as [mc| | |]; try (destruct Hi; fail).
    exists mc. destruct (to_inbound mc) as [j|e|]; [|destruct Hi|destruct Hi]. destruct j; first [destruct Hi as [Hi|[]]; now rewrite Hi|destruct Hi]. }
  destruct (PropFlow.drain decode P (SpecConsumer.pending decode cs1) _ cs1 Re1 Q1 eq_refl O1 Rc) as (hd & cs2 & X2 & Q2 & P2 & O2 & Ad & Od & _).
  exists h2, s2, m, s3, (map Arrive (gots c d) ++ hd), cs2. split; [exact R2|]. split; [exact R3|].
  assert (On2 : only_next_message (map Arrive (gots c d) ++ hd)).
  { intros t k X. apply in_app_iff in X as [X|X]; [apply in_map_iff in X as (y & Y & _); discriminate Y|exact (Od t k X)]. }
  split; [rewrite crun_app, X1; exact X2|]. split; [exact On2|].
  split; [now rewrite ConsumerFacts.arrivals_app, arrivals_arrive, Ad, app_nil_r|]. split; [exact Q2|].
  assert (Re2 : reaches decode P (hc ++ map Arrive (gots c d) ++ hd) cs2) by (unfold reaches in *; rewrite app_assoc, crun_app, Re1; exact X2).
  pose proof (C25_exactly_once_in_order T decode P _ cs2 ltac:(intros t k X; apply in_app_iff in X as [X|X]; [exact (On t k X)|exact (On2 t k X)]) Re2) as F.
  rewrite P2, app_nil_r in F. rewrite F, !app_assoc, ConsumerFacts.arrivals_app, Ad, app_nil_r, Ar1, <- M. apply stream_messages.
Qed.
Print Assumptions C88_all_returned.

(** * A concrete case *)
(** The consumer of C69_meets, built behind the proxy: of its three messages it has
    received and returned one, one is in its channel, one has not been taken. *)
Definition v_hc : list cev :=
  [Arrive (InMessage (DSingle 0 [(1%N, PInt 7); (2%N, PInt 1)] (str "a"))); Start 0 NextMessage; Consumer.Step 0; Consumer.Step 0; Consumer.Step 0; Consumer.Step 0].
Definition v_log : list obs := Eval vm_compute in match xrun w_events with Some l => l | None => [] end.
Example C88_meets : exists s cs, reach xE w_events s /\ (forall rank, as_polled xE rank w_events) /\ unharmed xE w_events /\ sensible xE (s_log s) /\ held 0 0%N s /\ (newids w_events <= 2 ^ 64)%N /\
  only_after_subscribe 0 0%N (s_log s) /\
  (forall i j cr topic sub rid t, nth_error (requests 0 (s_log s)) i = Some (OSubscribe topic sub 0%N rid t) -> nth_error (requests 0 (s_log s)) j = Some (OConnect cr) -> (i < j)%nat -> cn_addr cr = None) /\
  xP = last (goes (e_cfg xE) (broker_address (e_cfg xE)) (requests 0 (s_log s))) (broker_address (e_cfg xE)) /\ In (ODial xP true) (s_log s) /\
  only_next_message v_hc /\ reaches (fun b => Some b) 250 v_hc cs /\ SpecConsumer.arrivals v_hc = gots 0 (s_log s) /\ SpecConsumer.quiet cs /\ c_open cs = true /\
  (forall d, In d (messages_for 0%N (SpecEngine.arrivals xP (s_log s))) -> exists ms, unpack (fun b => Some b) d = Ok ms) /\
  length (messages_for 0%N (SpecEngine.arrivals xP (s_log s))) = 3 /\ length (messages_for 0%N (handles xP (s_log s))) = 2 /\ length (returned (Consumer.c_log cs)) = 1.
Proof.
  unfold reach. destruct (run xE sys_init w_events) as [s|] eqn:R; [|vm_compute in R; discriminate].
  destruct (crun_some v_hc (fun cs => SpecConsumer.quiet cs /\ c_open cs = true /\ length (returned (Consumer.c_log cs)) = 1)) as (cs & RC & Qc & Oc & Lc).
  { vm_compute. split; [intros [|t]; reflexivity|auto]. }
  exists s, cs. split; [reflexivity|]. split; [apply orderly_polled; vm_compute; reflexivity|].
  assert (El : s_log s = v_log) by (vm_compute in R; injection R as <-; reflexivity).
  assert (Se : sensible xE (s_log s)).
  { rewrite El. split; [|split; [exact Logic.I|]].
    - unfold v_log. intros c n o X. cbn [In] in X.
      repeat (destruct X as [X|X]; [first [discriminate X|injection X as <- <- <-; split; [cbn [req_ok]; unfold opt_ok, string_ok, u64, mid_ok; repeat (first [apply Forall_cons|apply Forall_nil|split]); try exact Logic.I; vm_compute; reflexivity|vm_compute; reflexivity]]|]). destruct X.
    - intros d [->|[n X]]; [vm_compute; reflexivity|]. unfold v_log in X. cbn [In] in X. repeat (destruct X as [X|X]; [discriminate X|]). destruct X. }
  split; [apply (benign_unharmed xE w_events s R Se); vm_compute; reflexivity|]. split; [exact Se|].
  split; [clear El Se; vm_compute in R; injection R as <-; unfold held; split; [vm_compute; tauto|]; repeat split; vm_compute; reflexivity|]. split; [vm_compute; discriminate|].
  rewrite El. change v_log with w_log. split; [exact w_causal|].
  split. { intros i j cr topic sub rid t X Y L. vm_compute in X, Y. destruct i as [|[|[|[|[|[|i]]]]]]; try discriminate X; try (destruct i; discriminate X).
    destruct j as [|[|[|[|[|[|j]]]]]]; try discriminate Y; try lia; destruct j; discriminate Y. }
  split; [vm_compute; reflexivity|]. split; [unfold w_log; cbn [In]; tauto|].
  split; [intros t k X; repeat (destruct X as [X|X]; [inversion X; reflexivity || discriminate|]); destruct X|]. split; [exact RC|]. split; [vm_compute; reflexivity|]. split; [exact Qc|]. split; [exact Oc|].
  split; [|split; [vm_compute; reflexivity|split; [vm_compute; reflexivity|exact Lc]]].
  intros d X. vm_compute in X. repeat (destruct X as [<-|X]; [eexists; reflexivity|]). destruct X.
Qed.
