(** C76: the order in which the engine serves its clients and connections. *)
From Verif Require Import Bytes Errors Wire Proto Codec Address Message SpecMessage Client SpecKeys MessageFacts Engine SpecEngine SpecEngine2 EngineFacts EngineInv EngineReq EngineEv EngineConn EngineLog EngineView EngineQueue EngineRoute EngineGate EngineLife EngineHang EngineOrigin EngineEx SpecTurn TurnFacts PropMessage PropEngine PropEngine2 PropEngine3 PropEngine6 PropEngine7 PropStack.
Open Scope N_scope.

(** * Schedules and their prefixes *)
Lemma reach_app E h1 s1 h2 s2 : reach E h1 s1 -> run E s1 h2 = Some s2 -> reach E (h1 ++ h2) s2.
Proof. unfold reach. intros H R. now rewrite run_app, H. Qed.
Lemma run_log E : forall h2 s1 s2, inv E s1 -> run E s1 h2 = Some s2 -> exists c, s_log s2 = s_log s1 ++ c.
Proof.
  induction h2 as [|e h2 IH]; intros s1 s2 I R; cbn [run] in R; [injection R as ->; exists []; now rewrite app_nil_r|].
  destruct (step E s1 e) as [t|] eqn:S; [|discriminate]. pose proof (step_trans _ _ _ _ (v_wf E s1 I) S) as T.
  destruct (log_trans E s1 e t T) as [c1 C1]. destruct (IH t s2 (inv_trans E s1 e t I T) R) as [c2 C2]. exists (c1 ++ c2). now rewrite C2, C1, app_assoc.
Qed.
(** The engine has done something in between: what was found, was found after that. *)
Lemma found_since E h e g P : engine_event e = true -> found E (h ++ e :: g) P -> exists g1 g2 s, g = g1 ++ g2 /\ reach E (h ++ e :: g1) s /\ P s.
Proof.
  intros Ee (p1 & p2 & s & X & N & R & H). revert p1 p2 X N R. induction g as [|y g IH] using rev_ind; intros p1 p2 X N R.
  - destruct p2 as [|z p2] using rev_ind; [rewrite app_nil_r in X; subst p1; exists [], [], s; auto|]. clear IHp2.
    rewrite app_assoc in X. apply app_inj_tail in X as [_ <-]. rewrite (N e) in Ee by (apply in_app_iff; right; now left). discriminate.
  - destruct p2 as [|z p2] using rev_ind; [rewrite app_nil_r in X; subst p1; exists (g ++ [y]), [], s; rewrite app_nil_r; auto|]. clear IHp2.
    change (h ++ e :: g ++ [y]) with (h ++ (e :: g) ++ [y]) in X. rewrite !app_assoc in X. apply app_inj_tail in X as [X _].
    destruct (IH p1 p2 X) as (g1 & g2 & t & -> & Rt & Pt); auto; [intros w Hw; apply N, in_app_iff; auto|]. exists g1, (g2 ++ [y]), t. rewrite app_assoc. auto.
Qed.
(** Two occurrences. *)
Lemma count_two f h : (2 <= count f h)%nat -> exists h1 a h2 b h3, h = h1 ++ a :: h2 ++ b :: h3 /\ f a = true /\ f b = true.
Proof.
  assert (One : forall l, (1 <= count f l)%nat -> exists l1 b l2, l = l1 ++ b :: l2 /\ f b = true).
  { unfold count. induction l as [|x l IH]; cbn [filter length]; intros X; [lia|]. destruct (f x) eqn:Fx; [exists [], x, l; auto|].
    destruct (IH X) as (l1 & b & l2 & -> & Fb). exists (x :: l1), b, l2. auto. }
  unfold count in *. induction h as [|x h IH]; cbn [filter length]; intros X; [lia|]. destruct (f x) eqn:Fx.
  - cbn [length] in X. destruct (One h) as (l1 & b & l2 & -> & Fb); [lia|]. exists [], x, l1, b, l2. auto.
  - destruct (IH X) as (h1 & a & h2 & b & h3 & -> & Fa & Fb). exists (x :: h1), a, h2, b, h3. auto.
Qed.
Lemma before_app d l m : In d l -> before d (l ++ m) = before d l.
Proof. induction l as [|x l IH]; [intros []|]. cbn [app before]. destruct (Nat.eqb_spec x d); [auto|]. intros [->|X]; [congruence|]. f_equal. auto. Qed.

(** * Clients *)
Lemma served_registered E h s d s' : reach E h s -> step E s (EvClient d) = Some s' -> In d (map fst (registered (s_log s))).
Proof.
  intros H S. rewrite (g_reg s (reach_gate E h s H)). unfold pairs. rewrite map_map. cbn [fst].
  assert (Ne : s_conns s <> [] \/ s_clients s = []) by (destruct (s_clients s) eqn:C; [auto|left; apply (C33_clients_need_connections E h s H); rewrite C; discriminate]).
  cbn [step] in S. destruct (s_phase s); try discriminate. destruct (s_conns s) as [|p l]; [destruct Ne as [Ne|Ne]; [congruence|rewrite Ne in S; discriminate]|].
  destruct (find (fun y => (rc_h y =? d)%nat) (s_clients s)) as [x|] eqn:F; [|discriminate]. apply find_some in F as [F1 F2]. apply Nat.eqb_eq in F2. subst d. now apply in_map.
Qed.
Lemma registered_app a b : registered (a ++ b) = registered a ++ registered b. Proof. apply flat_map_app. Qed.
(** As long as a client is not idle, the engine does not turn to those after it: it may
    have looked at this one just before the first request came, but not again. *)
Lemma never_idle E rank h1 s1 h2 s2 c : reach E h1 s1 -> run E s1 h2 = Some s2 -> as_polled E rank (h1 ++ h2) ->
  (forall g1 g2 t, h2 = g1 ++ g2 -> run E s1 g1 = Some t -> ~ idle_client c t) ->
  (count (serves_after c (s_log s2)) h2 <= 1)%nat.
Proof.
  intros H R Po Ni. destruct (Nat.le_gt_cases (count (serves_after c (s_log s2)) h2) 1) as [L|G]; [exact L|exfalso].
  apply count_two in G as (g1 & ea & g2 & eb & g3 & -> & Fa & Fb). destruct eb as [| | | | | | | | | d | | | | | | |]; try discriminate. cbn [serves_after] in Fb.
  assert (Ea : engine_event ea = true) by (destruct ea; try discriminate; reflexivity). clear Fa.
  apply existsb_exists in Fb as (c' & Fb & X). apply Nat.eqb_eq in X. subst c'.
  pose proof R as R'. change (ea :: g2 ++ EvClient d :: g3) with ((ea :: g2) ++ EvClient d :: g3) in R'. rewrite app_assoc, run_app in R'.
  destruct (run E s1 (g1 ++ ea :: g2)) as [t|] eqn:Rt; [|discriminate]. pose proof (reach_app E h1 s1 _ t H Rt) as Ht.
  assert (Bd : clients_before d (s_log s2) = clients_before d (s_log t)).
  { destruct (run_log E _ t s2 (reach_all E _ t Ht) R') as [l ->]. unfold clients_before. rewrite registered_app, map_app. apply before_app.
    cbn [run] in R'. destruct (step E t (EvClient d)) as [t'|] eqn:S; [|discriminate]. exact (served_registered E _ t d t' Ht S). }
  rewrite Bd in Fb.
  specialize (Po (h1 ++ g1 ++ ea :: g2) (EvClient d) g3 t). cbn beta iota in Po.
  assert (F : found E (h1 ++ g1 ++ ea :: g2) (idle_client c)).
  { apply Po; auto. rewrite <- !app_assoc. reflexivity. }
  rewrite app_assoc in F. apply found_since in F as (p1 & p2 & u & -> & Ru & Iu); [|exact Ea].
  assert (Rp : run E s1 (g1 ++ ea :: p1) = Some u).
  { unfold reach in Ru, H. rewrite <- app_assoc, run_app, H in Ru. exact Ru. }
  apply (Ni (g1 ++ ea :: p1) (p2 ++ EvClient d :: g3) u); auto. rewrite <- !app_assoc. reflexivity.
Qed.
Lemma issued_in c n o l : In (OIssue c n o) l -> In n (issued c l).
Proof. intros H. apply in_flat_map. exists (OIssue c n o). split; auto. rewrite Nat.eqb_refl. now left. Qed.
(** A request not taken is queued. *)
Lemma still_queued E h s c n : reach E h s -> In n (issued c (s_log s)) -> ~ In n (takes (s_log s)) -> In n (map fst (ch_up (s_ch s c))).
Proof.
  intros H I N. destruct (reach_queues E h s H) as [Q _]. rewrite (q_up s Q c) in I. apply in_app_iff in I as [I|I]; [|exact I]. apply filter_In in I. tauto.
Qed.
Lemma takes_app' a b : takes (a ++ b) = takes a ++ takes b. Proof. apply flat_map_app. Qed.
(** What a step adds to what has been taken from [c]. *)
Definition from_c (c : nat) (l : list obs) : list nat := filter (fun n => in_nat n (issued c l)) (takes l).
Lemma initial_pos {A} (l1 l2 m1 m2 : list A) x : NoDup (l1 ++ x :: l2) -> l1 ++ x :: l2 = m1 ++ x :: m2 -> length l1 = length m1.
Proof.
  intros N X. revert m1 N X. induction l1 as [|y l1 IH]; intros m1 N X; destruct m1 as [|z m1]; cbn [app length] in *.
  - reflexivity.
  - injection X as -> X. inversion N as [|? ? N1 _]; subst. exfalso. apply N1. apply in_elt.
  - injection X as <- X. inversion N as [|? ? N1 _]; subst. exfalso. apply N1. apply in_elt.
  - injection X as <- X. inversion N as [|? ? _ N2]; subst. f_equal. now apply IH.
Qed.
(** The place of a queued request among all requests of the client. *)
Lemma place E h s c n pre o post : reach E h s -> ch_up (s_ch s c) = pre ++ (n, o) :: post ->
  exists p q, issued c (s_log s) = p ++ n :: q /\ length p = (length (from_c c (s_log s)) + length pre)%nat.
Proof.
  intros H U. destruct (reach_queues E h s H) as [Q _]. pose proof (q_up s Q c) as X. rewrite U, map_app in X. cbn [map fst] in X.
  exists (from_c c (s_log s) ++ map fst pre), (map fst post). split; [rewrite <- app_assoc; exact X|]. now rewrite app_length, map_length.
Qed.
Lemma in_nat_spec n l : in_nat n l = true <-> In n l.
Proof. unfold in_nat. rewrite existsb_exists. split; [intros (x & X & Y); apply Nat.eqb_eq in Y; now subst|intros X; exists n; split; auto; apply Nat.eqb_refl]. Qed.
Lemma from_c_grows c a b : (length (from_c c a) <= length (from_c c (a ++ b)))%nat.
Proof.
  unfold from_c. rewrite takes_app', filter_app, app_length. induction (takes a) as [|n l IH]; cbn [filter length]; [lia|].
  rewrite issued_app. destruct (in_nat n (issued c a)) eqn:X.
  - assert (in_nat n (issued c a ++ issued c b) = true) as -> by (apply in_nat_spec, in_app_iff; left; now apply in_nat_spec). cbn [length]. rewrite issued_app in IH. lia.
  - destruct (in_nat n (issued c a ++ issued c b)); cbn [length]; rewrite issued_app in IH; lia.
Qed.
Lemma client_step_log E h s c s' : reach E h s -> step E s (EvClient c) = Some s' -> ch_up (s_ch s c) <> [] ->
  (length (from_c c (s_log s)) + 1 <= length (from_c c (s_log s')))%nat.
Proof.
  intros H S U. pose proof (step_trans _ _ _ _ (v_wf E s (reach_all E h s H)) S) as T.
  destruct (ch_up (s_ch s c)) as [|[n o] q] eqn:Uc; [congruence|]. clear U.
  assert (Is : In n (issued c (s_log s))).
  { apply issued_in with o. destruct (r_up s (v_r E s (reach_all E h s H)) c n o) as (Y & _); [rewrite Uc; now left|exact Y]. }
  assert (L : exists l, s_log s' = s_log s ++ OTake n :: l).
  { inversion T; subst; match goal with X : ch_up _ = (?m, _) :: _ |- _ => assert (m = n) by congruence; subst m | X : ch_up _ = [] |- _ => congruence end.
    - match goal with F : fwd _ _ _ _ _ |- _ => destruct (fwd_log _ _ _ _ _ F) as (l & L & _) end. rewrite taken_log, <- app_assoc in L. eexists. exact L.
    - pj. rewrite <- app_assoc. eexists. reflexivity.
    - pj. rewrite <- app_assoc. eexists. reflexivity.
    - match goal with F : fwd _ _ _ _ _ |- _ => destruct (fwd_log _ _ _ _ _ F) as (l & L & _) end. rewrite moved_log, taken_log, <- app_assoc in L. eexists. exact L. }
  destruct L as [l ->]. change (OTake n :: l) with ([OTake n] ++ l). rewrite app_assoc.
  eapply Nat.le_trans; [|apply from_c_grows]. unfold from_c. rewrite takes_app', filter_app, app_length. cbn [takes flat_map app filter]. rewrite issued_app. change (issued c [OTake n]) with (@nil nat). rewrite app_nil_r.
  apply in_nat_spec in Is. change (takes [OTake n]) with [n]. cbn [filter]. rewrite Is. cbn [length]. lia.
Qed.
Lemma own_takes E c n : forall h2 h s s2, reach E h s -> run E s h2 = Some s2 -> In n (issued c (s_log s)) -> ~ In n (takes (s_log s2)) ->
  (length (from_c c (s_log s)) + count (serves c) h2 <= length (from_c c (s_log s2)))%nat.
Proof.
  unfold count. induction h2 as [|e h2 IH]; intros h s s2 H R I N; cbn [run] in R; [injection R as ->; cbn; lia|].
  destruct (step E s e) as [t|] eqn:S; [|discriminate]. assert (Ht : reach E (h ++ [e]) t) by (unfold reach in *; rewrite run_app, H; cbn [run]; now rewrite S).
  destruct (log_trans E s e t (step_trans _ _ _ _ (v_wf E s (reach_all E h s H)) S)) as [l L].
  destruct (run_log E h2 t s2 (reach_all E _ t Ht) R) as [l2 L2].
  assert (It : In n (issued c (s_log t))) by (rewrite L, issued_app, in_app_iff; auto).
  assert (Ns : ~ In n (takes (s_log s))) by (intros X; apply N; rewrite L2, L, !takes_app', !in_app_iff; auto).
  specialize (IH _ t s2 Ht R It N). cbn [filter]. destruct (serves c e) eqn:Se; cbn [length]; [|rewrite L in IH; pose proof (from_c_grows c (s_log s) l); lia].
  destruct e; try discriminate. cbn [serves] in Se. apply Nat.eqb_eq in Se. subst h0.
  pose proof (client_step_log E h s c t H S) as X. specialize (X ltac:(intros Z; pose proof (still_queued E h s c n H I Ns) as Y; rewrite Z in Y; destruct Y)). lia.
Qed.
(** A request of [c], [length pre] others of [c] before it in the queue: until it is
    taken the engine serves [c] at most [length pre] times, and those registered after
    [c] once. *)
Theorem C76_waits_for_earlier_clients_only : forall E rank h1 s1 h2 s2 c pre n o post, reach E h1 s1 -> run E s1 h2 = Some s2 -> as_polled E rank (h1 ++ h2) ->
  ch_up (s_ch s1 c) = pre ++ (n, o) :: post -> ~ In n (takes (s_log s2)) ->
  (count (serves c) h2 <= length pre)%nat /\ (count (serves_after c (s_log s2)) h2 <= 1)%nat.
Proof.
  intros E rank h1 s1 h2 s2 c pre n o post H R Po U N.
  pose proof (reach_app E h1 s1 h2 s2 H R) as H2. destruct (run_log E h2 s1 s2 (reach_all E _ s1 H) R) as [l L].
  assert (I : In n (issued c (s_log s1))).
  { apply issued_in with o. destruct (r_up s1 (v_r E s1 (reach_all E h1 s1 H)) c n o) as (Y & _); [rewrite U; apply in_elt|exact Y]. }
  split.
  - pose proof (own_takes E c n h2 h1 s1 s2 H R I N) as X.
    assert (Q2 : In n (map fst (ch_up (s_ch s2 c)))) by (apply (still_queued E _ s2 c n H2); auto; rewrite L, issued_app, in_app_iff; auto).
    apply in_map_iff in Q2 as ([m o2] & Em & Q2). cbn in Em. subst m. apply in_split in Q2 as (pre2 & post2 & U2).
    destruct (place E h1 s1 c n pre o post H U) as (p & q & P1 & P2). destruct (place E _ s2 c n pre2 o2 post2 H2 U2) as (p' & q' & P1' & P2').
    pose proof (issued_nodup E _ s2 c H2) as ND. rewrite P1' in ND. rewrite L, issued_app, P1 in P1'. rewrite <- app_assoc in P1'. cbn [app] in P1'.
    pose proof (initial_pos _ _ _ _ n ND (eq_sym P1')) as Y. lia.
  - apply (never_idle E rank h1 s1 h2 s2 c H R Po). intros g1 g2 t -> Rt [Em _].
    rewrite run_app, Rt in R. pose proof (reach_app E h1 s1 g1 t H Rt) as Ht.
    destruct (run_log E g1 s1 t (reach_all E _ s1 H) Rt) as [l1 L1]. destruct (run_log E g2 t s2 (reach_all E _ t Ht) R) as [l2 L2].
    pose proof (still_queued E _ t c n Ht) as X. rewrite Em in X. apply X; [rewrite L1, issued_app, in_app_iff; auto|]. intros Y. apply N. rewrite L2, takes_app', in_app_iff. auto.
Qed.
Print Assumptions C76_waits_for_earlier_clients_only.
Lemma run_nh E : forall h2 s s2 c, inv E s -> run E s h2 = Some s2 -> (c < s_nh s)%nat -> ch_client (s_ch s c) = false -> ch_client (s_ch s2 c) = false.
Proof.
  induction h2 as [|e h2 IH]; intros s s2 c I R Hlt Hg; cbn [run] in R; [congruence|].
  destruct (step E s e) as [s1|] eqn:S; [|discriminate]. pose proof (step_trans _ _ _ _ (v_wf E s I) S) as T.
  destruct (trans_gone E s e s1 c (v_h E s I) T Hlt Hg) as [A B]. apply (IH s1 s2 c (inv_trans E s e s1 I T) R); auto.
  clear - T Hlt. destruct T; try exact Hlt; try (pj; lia); try (rewrite stop_eq; exact Hlt).
  - destruct H5; [exact Hlt|rewrite stop_eq; exact Hlt].
  - destruct H6; rewrite ?stop_eq; pj; rewrite moved_nh; exact Hlt.
  - destruct H1; rewrite ?stop_eq; pj; rewrite moved_nh; exact Hlt.
  - destruct H0; rewrite ?stop_eq; pj; rewrite moved_nh; exact Hlt.
  - destruct H0; exact Hlt.
  - destruct H4; exact Hlt.
Qed.
(** A registered client that has been dropped: the engine serves those registered after
    it at most once more (and it at most as often as it has requests queued:
    C42_dropped_client_ends_engine). *)
Theorem C76_dropped_client_blocks_later : forall E rank h1 s1 h2 s2 c id, reach E h1 s1 -> run E s1 h2 = Some s2 -> as_polled E rank (h1 ++ h2) ->
  In (c, id) (registered (s_log s1)) -> ch_client (s_ch s1 c) = false -> (count (serves_after c (s_log s2)) h2 <= 1)%nat.
Proof.
  intros E rank h1 s1 h2 s2 c id H R Po Rg Hc. apply (never_idle E rank h1 s1 h2 s2 c H R Po). intros g1 g2 t -> Rt [_ Em].
  pose proof (reach_all E h1 s1 H) as I. rewrite (g_reg s1 (reach_gate E h1 s1 H)) in Rg. apply in_map_iff in Rg as (x & Ex & Hx). injection Ex as <- _.
  assert (Hlt : (rc_h x < s_nh s1)%nat) by (apply (h_lt s1 (v_h E s1 I)), in_app_iff; left; now apply in_map).
  rewrite (run_nh E g1 s1 t (rc_h x) I Rt Hlt Hc) in Em. discriminate.
Qed.
Print Assumptions C76_dropped_client_blocks_later.

(** * Connections *)
Definition up_step (s s' : sys) (a : baddr) (k : conn) (e : event) : Prop :=
  exists k' l, get_conn a (s_conns s') = Some k' /\
  (if reads a e then forall x q, k_n2e k = x :: q -> k_n2e k' = q ++ l /\ In (OHandle a (fst x) (snd x)) (s_log s') else k_n2e k' = k_n2e k ++ l).
Lemma up_same s s' a k e : reads a e = false -> get_conn a (s_conns s') = Some k -> up_step s s' a k e.
Proof. intros H H1. exists k, []. rewrite H, app_nil_r. auto. Qed.
Lemma up_fwd s s1 id n o s' a k e : reads a e = false -> fwd s1 id n o s' -> get_conn a (s_conns s1) = Some k -> up_step s s' a k e.
Proof.
  intros H F G. destruct F as [c k1 F1 F2 F3|c k1 F1 F2 F3]; [|apply up_same; [exact H|now rewrite stop_conns]].
  destruct (baddr_dec (rc_addr c) a) as [<-|X].
  - assert (k1 = k) by congruence. subst k1. eexists. exists []. rewrite H. pj. rewrite get_set_same. split; [reflexivity|]. cbn [k_n2e]. now rewrite app_nil_r.
  - apply up_same; [exact H|]. pj. now rewrite get_set_other.
Qed.
Lemma up_put s a0 k0 k1 a k e s' : reads a e = false -> get_conn a0 (s_conns s) = Some k0 -> get_conn a (s_conns s) = Some k ->
  s_conns s' = set_conn a0 k1 (s_conns s) -> (exists l, k_n2e k1 = k_n2e k0 ++ l) -> up_step s s' a k e.
Proof.
  intros H G0 G X [l L]. destruct (baddr_dec a0 a) as [<-|N].
  - assert (k0 = k) by congruence. subst k0. exists k1, l. rewrite X, get_set_same, H. auto.
  - apply up_same; [exact H|]. now rewrite X, get_set_other.
Qed.
Lemma set_conn_twice (l : list (baddr * conn)) a k k' : set_conn a k' (set_conn a k l) = set_conn a k' l.
Proof. induction l as [|[b x] r IH]; cbn; [now rewrite baddr_eqb_refl|]. destruct (baddr_eqb a b) eqn:X; cbn; [now rewrite baddr_eqb_refl|rewrite X; now f_equal]. Qed.
Lemma trans_up E s e s' a k : wf E s -> trans E s e s' -> get_conn a (s_conns s) = Some k -> up_step s s' a k e.
Proof.
  intros W T K.
  destruct T;
    try (apply up_same; [reflexivity|rewrite ?stop_conns; exact K]).
  - apply up_same; auto. destruct (wf_start E s W H) as [_ X]. rewrite X in K. discriminate.
  - eapply up_fwd; [reflexivity|exact H5|exact K].
  - eapply up_fwd; [reflexivity|exact H6|now rewrite moved_conns].
  - eapply up_fwd; [reflexivity|exact H1|now rewrite moved_conns].
  - eapply up_fwd; [reflexivity|exact H0|]. rewrite moved_conns. pj. apply new_lost; auto. pose proof (wf_dial E s W) as X. rewrite H in X. exact X.
  - apply up_same; auto. now rewrite (sent_conn _ _ _ _ _ a H0).
  - destruct (baddr_dec a0 a) as [<-|N].
    + assert (k0 = k) by congruence. subst k0. eexists. exists []. cbn [reads]. rewrite baddr_eqb_refl. pj. rewrite get_set_same. split; [reflexivity|]. intros x q' X. assert (x = (ser, InPing) /\ q' = q) as [-> ->] by (split; congruence). cbn [k_n2e fst snd]. rewrite app_nil_r. split; [reflexivity|]. apply in_app_iff. right. now left.
    + apply up_same; [cbn [reads]; destruct (baddr_eqb a0 a) eqn:X; [apply baddr_eqb_spec in X; congruence|reflexivity]|]. pj. now rewrite get_set_other.
  - destruct (baddr_dec a0 a) as [<-|N].
    + assert (k0 = k) by congruence. subst k0. eexists. exists []. cbn [reads]. rewrite baddr_eqb_refl. rewrite stop_conns. pj. rewrite get_set_same. split; [reflexivity|]. intros x q' X. assert (x = (ser, InPing) /\ q' = q) as [-> ->] by (split; congruence). cbn [k_n2e fst snd]. rewrite app_nil_r. split; [reflexivity|]. rewrite stop_log_eq. pj. rewrite !in_app_iff. left. right. now left.
    + apply up_same; [cbn [reads]; destruct (baddr_eqb a0 a) eqn:X; [apply baddr_eqb_spec in X; congruence|reflexivity]|]. rewrite stop_conns. pj. now rewrite get_set_other.
  - destruct (baddr_dec a0 a) as [<-|N].
    + assert (k0 = k) by congruence. subst k0. eexists. exists []. cbn [reads]. rewrite baddr_eqb_refl. rewrite (sent_conn _ _ _ _ _ a0 H4). pj. rewrite get_set_same. split; [reflexivity|]. intros x q' X. assert (x = (ser, i) /\ q' = q) as [-> ->] by (split; congruence). cbn [k_n2e fst snd]. rewrite app_nil_r. split; [reflexivity|].
      destruct (sent_log _ _ _ _ _ H4) as (l & -> & _). pj. rewrite !in_app_iff. left. right. now left.
    + apply up_same; [cbn [reads]; destruct (baddr_eqb a0 a) eqn:X; [apply baddr_eqb_spec in X; congruence|reflexivity]|]. rewrite (sent_conn _ _ _ _ _ a H4). pj. now rewrite get_set_other.
  - exists k, []. rewrite stop_conns. split; [exact K|]. rewrite app_nil_r. destruct (reads a (EvConn a0)) eqn:X; [|reflexivity]. cbn [reads] in X. apply baddr_eqb_spec in X. subst a0. intros x q X. assert (k0 = k) by congruence. subst. congruence.
  - eapply up_put; [reflexivity|exact H|exact K|reflexivity|]. exists []. cbn [k_n2e]. now rewrite app_nil_r.
  - eapply up_put; [reflexivity|exact H|exact K|apply set_conn_twice|]. exists []. cbn [k_n2e]. now rewrite app_nil_r.
  - eapply up_put; [reflexivity|exact H|exact K|reflexivity|]. exists []. cbn [k_n2e]. now rewrite app_nil_r.
  - eapply up_put; [reflexivity|exact H|exact K|reflexivity|]. exists []. cbn [k_n2e]. now rewrite app_nil_r.
  - eapply up_put; [reflexivity|exact H|exact K|reflexivity|]. exists []. cbn [k_n2e]. now rewrite app_nil_r.
  - eapply up_put; [reflexivity|exact H|exact K|reflexivity|]. exists []. cbn [k_n2e]. now rewrite app_nil_r.
  - eapply up_put; [reflexivity|exact H|exact K|reflexivity|]. exists [(s_narr s, i)]. reflexivity.
  - eapply up_put; [reflexivity|exact H|exact K|reflexivity|]. exists []. cbn [k_n2e]. now rewrite app_nil_r.
Qed.
Lemma set_len (l : list (baddr * conn)) a k : (length l <= length (set_conn a k l))%nat.
Proof. induction l as [|[b x] r IH]; cbn [set_conn length]; [lia|]. destruct (baddr_eqb a b); cbn [length]; lia. Qed.
Lemma fwd_len s id n o s' : fwd s id n o s' -> (length (s_conns s) <= length (s_conns s'))%nat.
Proof. intros F. destruct F; [pj; apply set_len|now rewrite stop_conns]. Qed.
Lemma sent_conns s a ser i s' : sent s a ser i s' -> s_conns s' = s_conns s.
Proof. intros S. destruct S; reflexivity. Qed.
Lemma trans_len E s e s' : trans E s e s' -> (length (s_conns s) <= length (s_conns s'))%nat.
Proof.
  intros T. destruct T; rewrite ?stop_conns; pj; try apply set_len; try apply Nat.le_refl.
  - apply fwd_len in H5. exact H5.
  - apply fwd_len in H6. rewrite moved_conns in H6. exact H6.
  - apply fwd_len in H1. rewrite moved_conns in H1. exact H1.
  - apply fwd_len in H0. rewrite moved_conns in H0. eapply Nat.le_trans; [|exact H0]. pj. apply set_len.
  - now rewrite (sent_conns _ _ _ _ _ H0).
  - rewrite (sent_conns _ _ _ _ _ H4). pj. apply set_len.
  - eapply Nat.le_trans; apply set_len.
Qed.
Lemma run_len E : forall h2 s s2, inv E s -> run E s h2 = Some s2 -> (length (s_conns s) <= length (s_conns s2))%nat.
Proof.
  induction h2 as [|e h2 IH]; intros s s2 I R; cbn [run] in R; [injection R as ->; lia|].
  destruct (step E s e) as [t|] eqn:S; [|discriminate]. pose proof (step_trans _ _ _ _ (v_wf E s I) S) as T.
  pose proof (trans_len E s e t T). pose proof (IH t s2 (inv_trans E s e t I T) R). lia.
Qed.
Lemma get_conn_in a k l : get_conn a l = Some k -> In a (map fst l).
Proof. induction l as [|[b x] r IH]; cbn [get_conn map fst]; [discriminate|]. destruct (baddr_eqb a b) eqn:X; [apply baddr_eqb_spec in X; subst; now left|right; auto]. Qed.
Lemma never_idle_conn E rank h1 s1 h2 s2 a : reach E h1 s1 -> run E s1 h2 = Some s2 -> as_polled E rank (h1 ++ h2) -> length (s_conns s2) = length (s_conns s1) ->
  (forall g1 g2 t, h2 = g1 ++ g2 -> run E s1 g1 = Some t -> get_conn a (s_conns t) <> None /\ ~ idle_conn a t) ->
  (count (reads_after (rank (length (s_conns s1))) a) h2 <= 1)%nat.
Proof.
  intros H R Po Le Ni. set (n := length (s_conns s1)) in *. destruct (Nat.le_gt_cases (count (reads_after (rank n) a) h2) 1) as [L|G]; [exact L|exfalso].
  apply count_two in G as (g1 & ea & g2 & eb & g3 & -> & Fa & Fb). destruct eb as [| | | | | | | | | | | | | b | | |]; try discriminate. cbn [reads_after] in Fb. apply Nat.ltb_lt in Fb.
  assert (Ea : engine_event ea = true) by (destruct ea; try discriminate; reflexivity). clear Fa.
  pose proof R as R'. change (ea :: g2 ++ EvConn b :: g3) with ((ea :: g2) ++ EvConn b :: g3) in R'. rewrite app_assoc, run_app in R'.
  destruct (run E s1 (g1 ++ ea :: g2)) as [t|] eqn:Rt; [|discriminate]. pose proof (reach_app E h1 s1 _ t H Rt) as Ht.
  assert (Ln : length (s_conns t) = n).
  { pose proof (run_len E _ t s2 (reach_all E _ t Ht) R'). pose proof (run_len E _ s1 t (reach_all E _ s1 H) Rt). fold n in H1. lia. }
  destruct (Ni (g1 ++ ea :: g2) (EvConn b :: g3) t) as [Ex _]; [rewrite <- app_assoc; reflexivity|exact Rt|]. destruct (get_conn a (s_conns t)) as [k|] eqn:K; [|congruence].
  specialize (Po (h1 ++ g1 ++ ea :: g2) (EvConn b) g3 t). cbn beta iota zeta in Po.
  assert (F : found E (h1 ++ g1 ++ ea :: g2) (idle_conn a)).
  { apply Po; auto; [rewrite <- !app_assoc; reflexivity|apply get_conn_in with k; exact K|rewrite Ln; exact Fb]. }
  rewrite app_assoc in F. apply found_since in F as (p1 & p2 & u & -> & Ru & Iu); [|exact Ea].
  assert (Rp : run E s1 (g1 ++ ea :: p1) = Some u).
  { unfold reach in Ru, H. rewrite <- app_assoc, run_app, H in Ru. exact Ru. }
  apply (Ni (g1 ++ ea :: p1) (p2 ++ EvConn b :: g3) u); auto. rewrite <- !app_assoc. reflexivity.
Qed.
Lemma own_reads E a ser i : forall h2 s k pre post s2, inv E s -> run E s h2 = Some s2 -> get_conn a (s_conns s) = Some k -> k_n2e k = pre ++ (ser, i) :: post -> ~ In (OHandle a ser i) (s_log s2) ->
  exists k2 pre2 post2, get_conn a (s_conns s2) = Some k2 /\ k_n2e k2 = pre2 ++ (ser, i) :: post2 /\ (count (reads a) h2 + length pre2 = length pre)%nat.
Proof.
  unfold count. induction h2 as [|e h2 IH]; intros s k pre post s2 I R K Q N; cbn [run] in R.
  { injection R as ->. exists k, pre, post. auto. }
  destruct (step E s e) as [t|] eqn:S; [|discriminate]. pose proof (step_trans _ _ _ _ (v_wf E s I) S) as T. pose proof (inv_trans E s e t I T) as It.
  destruct (trans_up E s e t a k (v_wf E s I) T K) as (k1 & l & K1 & X). cbn [filter]. destruct (reads a e).
  - destruct pre as [|y pre]; cbn [app] in Q.
    + exfalso. destruct (X _ _ Q) as [_ X2]. apply N. destruct (run_log E h2 t s2 It R) as [c ->]. apply in_app_iff. now left.
    + destruct (X _ _ Q) as [X1 _]. rewrite <- app_assoc in X1. destruct (IH t k1 pre (post ++ l) s2 It R K1 X1 N) as (k2 & p2 & q2 & A & B & C). exists k2, p2, q2. split; auto. split; auto. cbn [length]. lia.
  - rewrite Q, <- app_assoc in X. destruct (IH t k1 pre (post ++ l) s2 It R K1 X N) as (k2 & p2 & q2 & A & B & C). exists k2, p2, q2. auto.
Qed.
(** Likewise for an event on connection [a], while no connection is added. *)
Theorem C76_waits_for_earlier_connections_only : forall E rank h1 s1 h2 s2 a k pre ser i post, reach E h1 s1 -> run E s1 h2 = Some s2 -> as_polled E rank (h1 ++ h2) ->
  length (s_conns s2) = length (s_conns s1) -> get_conn a (s_conns s1) = Some k -> k_n2e k = pre ++ (ser, i) :: post -> ~ In (OHandle a ser i) (s_log s2) ->
  (count (reads a) h2 <= length pre)%nat /\ (count (reads_after (rank (length (s_conns s1))) a) h2 <= 1)%nat.
Proof.
  intros E rank h1 s1 h2 s2 a k pre ser i post H R Po Le K Q N. pose proof (reach_all E h1 s1 H) as I. split.
  - destruct (own_reads E a ser i h2 s1 k pre post s2 I R K Q N) as (? & ? & ? & _ & _ & X). lia.
  - apply (never_idle_conn E rank h1 s1 h2 s2 a H R Po Le). intros g1 g2 t Eh Rt. rewrite Eh, run_app, Rt in R. pose proof (reach_app E h1 s1 g1 t H Rt) as Ht.
    destruct (run_log E g2 t s2 (reach_all E _ t Ht) R) as [c C].
    destruct (own_reads E a ser i g1 s1 k pre post t I Rt K Q) as (k2 & p2 & q2 & K2 & Q2 & _); [intros X; apply N; rewrite C; apply in_app_iff; now left|].
    split; [congruence|]. intros X. destruct (X k2 K2) as [Y _]. rewrite Y in Q2. destruct p2; discriminate.
Qed.
Print Assumptions C76_waits_for_earlier_connections_only.
(** A lost connection: those polled after it are read at most once more. *)
Theorem C76_lost_connection_blocks_later : forall E rank h1 s1 h2 s2 a k, reach E h1 s1 -> run E s1 h2 = Some s2 -> as_polled E rank (h1 ++ h2) ->
  length (s_conns s2) = length (s_conns s1) -> get_conn a (s_conns s1) = Some k -> k_alive k = false ->
  (count (reads_after (rank (length (s_conns s1))) a) h2 <= 1)%nat.
Proof.
  intros E rank h1 s1 h2 s2 a k H R Po Le K A. pose proof (reach_all E h1 s1 H) as I.
  apply (never_idle_conn E rank h1 s1 h2 s2 a H R Po Le). intros g1 g2 t _ Rt.
  assert (X : exists k1, get_conn a (s_conns t) = Some k1 /\ k_alive k1 = false).
  { clear - Rt I K A. revert s1 k I K A Rt. clear. induction g1 as [|e g1 IH]; intros s k I K A R; cbn [run] in R; [injection R as <-; eauto|].
    destruct (step E s e) as [u|] eqn:S; [|discriminate]. pose proof (step_trans _ _ _ _ (v_wf E s I) S) as T.
    destruct (trans_lost E s e u a k (v_wf E s I) T K A) as (k0 & k1 & _ & B & C & _). exact (IH u k1 (inv_trans E s e u I T) B C R). }
  destruct X as (k1 & K1 & A1). split; [congruence|]. intros X. destruct (X k1 K1). congruence.
Qed.
Print Assumptions C76_lost_connection_blocks_later.

(** * Who is served *)
Lemma take_send_ch E s c x n o q k s' : s_phase s = PRun -> find (fun y => (rc_h y =? c)%nat) (s_clients s) = Some x -> ch_up (s_ch s c) = (n, o) :: q ->
  is_connect o = false -> get_client (rc_id x) (s_clients s) = Some x -> get_conn (rc_addr x) (s_conns s) = Some k -> k_alive k = true ->
  step E s (EvClient c) = Some s' -> s_ch s' c = ch_set_up q (s_ch s c).
Proof.
  intros P F U O G K A. cbn [step]. rewrite P, F, U. destruct (s_conns s) as [|p l] eqn:Cs; [discriminate|]. rewrite <- Cs in *. clear p l Cs.
  destruct (if asks o then r_put (okey o) n (s_res s) else (s_res s, [])) as [res dropped]. fold (taken s c q n res dropped).
  assert (handle_outbound E (taken s c q n res dropped) (rc_id x) n o = forward (taken s c q n res dropped) (rc_id x) n o) as -> by (destruct o; try discriminate; reflexivity).
  unfold forward. change (s_clients (taken s c q n res dropped)) with (s_clients s). rewrite G. unfold send_conn.
  change (s_conns (taken s c q n res dropped)) with (s_conns s). rewrite K, A.
  replace (match o with OConnect _ => true | _ => false end) with false by (destruct o; try reflexivity; discriminate).
  intros X. injection X as <-. pj. now rewrite set_ch_same.
Qed.
(** There is no such bound with respect to clients registered earlier: one whose
    predecessors are idle can be served any number of times while all others wait. *)
Theorem C76_no_bound_on_earlier_clients : forall E rank h s c id a k os, reach E h s -> as_polled E rank h -> newids h <= 2 ^ 64 -> s_phase s = PRun ->
  In (c, id) (registered (s_log s)) -> v_home (look (broker_address (e_cfg E)) c (s_log s)) = Some a -> get_conn a (s_conns s) = Some k -> k_alive k = true ->
  ch_use (s_ch s c) = true -> idle_client c s -> (forall d, In d (clients_before c (s_log s)) -> idle_client d s) ->
  (forall o, In o os -> kind_of o <> Some KConnect /\ api_request id o = true) ->
  exists s', let h2 := flat_map (fun o => [EvIssue c o; EvClient c]) os in
    run E s h2 = Some s' /\ as_polled E rank (h ++ h2) /\ count (serves c) h2 = length os /\
    forall d, d <> c -> ch_up (s_ch s' d) = ch_up (s_ch s d).
Proof.
  intros E rank h s c id a k os H Po Hn P R Hh K A Us [Em Cl] Ib Os.
  destruct (client_of E h s c id H Hn) as (x & Xc & Xi & Fi & G & Home); auto; [rewrite P; discriminate|]. rewrite Hh in Home. injection Home as ->. subst id.
  pose proof (v_h E s (reach_all E h s H)) as Hi.
  assert (Hx : In x (s_clients s)) by exact (proj1 (find_some _ _ Fi)).
  assert (Id : ch_id (s_ch s c) = rc_id x) by (apply (h_cid s Hi), in_map_iff; exists x; split; [congruence|exact Hx]).
  assert (En : ch_engine (s_ch s c) = true).
  { apply (h_engine s Hi). left. split; [rewrite <- Xc; now apply in_map|rewrite P; discriminate]. }
  rewrite (clients_at E h s c H) in Ib.
  assert (Z : exists s', run E s (flat_map (fun o => [EvIssue c o; EvClient c]) os) = Some s' /\ as_polled E rank (h ++ flat_map (fun o => [EvIssue c o; EvClient c]) os) /\ forall d, d <> c -> s_ch s' d = s_ch s d).
  { clear R Hh Hn Hi Hx. revert h s k H Po P K A Us Em Cl Ib Fi G Id En. induction os as [|o os IH]; intros h s k H Po P K A Us Em Cl Ib Fi G Id En.
    - exists s. cbn [flat_map run]. rewrite app_nil_r. auto.
    - destruct (Os o (or_introl eq_refl)) as [O1 O2].
      assert (Oc : is_connect o = false) by (destruct o; try reflexivity; exfalso; apply O1; reflexivity).
      set (n := s_nreq s). set (s1 := say (upd_ch (with_counts s (S n) (s_narr s)) c (ch_push_up (n, o))) [OIssue c n o]).
      assert (S1 : step E s (EvIssue c o) = Some s1) by (cbn [step]; rewrite Cl, Us, Id, O2, En; reflexivity).
      assert (C1 : s_ch s1 c = ch_push_up (n, o) (s_ch s c)) by (unfold s1; pj; now rewrite set_ch_same).
      assert (D1 : forall d, d <> c -> s_ch s1 d = s_ch s d) by (intros d D; unfold s1; pj; now rewrite set_ch_other).
      assert (U1 : ch_up (s_ch s1 c) = [(n, o)]) by (rewrite C1; unfold ch_push_up; cbn [ch_up]; now rewrite Em).
      assert (H1 : reach E (h ++ [EvIssue c o]) s1) by (unfold reach in *; rewrite run_app, H; cbn [run]; now rewrite S1).
      assert (Po1 : as_polled E rank (h ++ [EvIssue c o])) by (apply (polled_snoc E rank h _ s Po H); exact I).
      destruct (take_send E s1 c x n o [] k P Fi U1 Oc G K A) as (s2 & S2 & P2 & Cs2 & U2 & Cc2 & D2 & _ & K2).
      pose proof (take_send_ch E s1 c x n o [] k s2 P Fi U1 Oc G K A S2) as C2.
      assert (H2 : reach E (h ++ [EvIssue c o; EvClient c]) s2) by (unfold reach in *; rewrite run_app, H; cbn [run]; now rewrite S1, S2).
      assert (Po2 : as_polled E rank (h ++ [EvIssue c o; EvClient c])).
      { change [EvIssue c o; EvClient c] with ([EvIssue c o] ++ [EvClient c]). rewrite app_assoc. apply (polled_snoc E rank _ _ s1 Po1 H1).
        intros d Hd. rewrite (clients_at E _ s1 c H1) in Hd. change (s_clients s1) with (s_clients s) in Hd. assert (d <> c) by (intros ->; exact (before_out _ _ Hd)).
        unfold idle_client. rewrite D1 by auto. now apply Ib. }
      change (s_clients s1) with (s_clients s) in Cs2.
      destruct (IH (fun o' X => Os o' (or_intror X)) (h ++ [EvIssue c o; EvClient c]) s2 (mk_conn (k_e2n k ++ [item (n, o)]) (k_n2e k) (k_res k) true (k_errored k))) as (s3 & R3 & Po3 & D3); auto;
        try (rewrite C2, C1; assumption); try (rewrite Cs2; assumption).
      { intros d Hd. rewrite Cs2 in Hd. assert (d <> c) by (intros ->; exact (before_out _ _ Hd)). unfold idle_client. rewrite D2, D1 by auto. now apply Ib. }
      exists s3. cbn [flat_map app run]. rewrite S1, S2. rewrite <- app_assoc in Po3. split; [exact R3|]. split; [exact Po3|]. intros d D. now rewrite D3, D2, D1. }
  destruct Z as (s' & R' & Po' & D'). exists s'. cbv zeta. split; [exact R'|]. split; [exact Po'|]. split; [|intros d D; now rewrite D'].
  unfold count. clear. induction os as [|o os IH]; [reflexivity|]. cbn [flat_map app filter serves length]. rewrite Nat.eqb_refl. cbn [length]. now rewrite IH.
Qed.
Print Assumptions C76_no_bound_on_earlier_clients.
(** The engine is never held up by the order: when it waits for events and some client,
    or connection, has something for it, the first such one can be taken from next. *)
Lemma first_of {A} (P : A -> Prop) (dec : forall x, {P x} + {~ P x}) l : (exists x, In x l /\ ~ P x) -> exists l1 x l2, l = l1 ++ x :: l2 /\ ~ P x /\ forall y, In y l1 -> P y.
Proof.
  induction l as [|y l IH]; intros (x & X & N); [destruct X|]. destruct (dec y) as [D|D]; [|exists [], y, l; conjs; auto; intros z []].
  destruct X as [->|X]; [contradiction|]. destruct IH as (l1 & z & l2 & -> & Nz & Pz); [eauto|]. exists (y :: l1), z, l2. conjs; auto. intros w [<-|W]; auto.
Qed.
Lemma idle_dec s c : {idle_client c s} + {~ idle_client c s}.
Proof. unfold idle_client. destruct (ch_up (s_ch s c)); [destruct (ch_client (s_ch s c)); [left; auto|right; intros [_ X]; discriminate]|right; intros [X _]; discriminate]. Qed.
Theorem C76_some_client_can_be_served : forall E rank h s c id, reach E h s -> as_polled E rank h -> s_phase s = PRun ->
  In (c, id) (registered (s_log s)) -> ~ idle_client c s ->
  exists d s', (d = c \/ In d (clients_before c (s_log s))) /\ ~ idle_client d s /\ step E s (EvClient d) = Some s' /\ as_polled E rank (h ++ [EvClient d]).
Proof.
  intros E rank h s c id H Po P R Ni. rewrite (g_reg s (reach_gate E h s H)) in R. apply in_map_iff in R as (x & Ex & Hx). injection Ex as <- <-.
  pose proof (handles_nodup E h s H) as ND.
  destruct (first_of (fun d => idle_client d s) (idle_dec s) (before (rc_h x) (map rc_h (s_clients s)) ++ [rc_h x])) as (l1 & d & l2 & El & Nd & Pd).
  { exists (rc_h x). split; [apply in_app_iff; right; now left|exact Ni]. }
  assert (Bd : before d (map rc_h (s_clients s)) = l1 /\ (d = rc_h x \/ In d (before (rc_h x) (map rc_h (s_clients s))))).
  { destruct l2 as [|z l2 _] using rev_ind.
    - apply app_inj_tail in El as [El <-]. rewrite El. auto.
    - change (l1 ++ d :: l2 ++ [z]) with (l1 ++ (d :: l2) ++ [z]) in El. rewrite app_assoc in El. apply app_inj_tail in El as [El _].
      split; [exact (before_split (rc_h x) d _ ND l1 l2 El)|right; rewrite El; apply in_elt]. }
  destruct Bd as [Bd Wh].
  assert (Hd : In d (map rc_h (s_clients s))) by (destruct Wh as [->|Wh]; [now apply in_map|now apply in_before in Wh]).
  assert (Fd : exists y, find (fun z => (rc_h z =? d)%nat) (s_clients s) = Some y).
  { destruct (find (fun z => (rc_h z =? d)%nat) (s_clients s)) as [y|] eqn:F; [eauto|]. apply in_map_iff in Hd as (y & <- & Hy). pose proof (find_none _ _ F y Hy) as X. cbn beta in X. rewrite Nat.eqb_refl in X. discriminate. }
  destruct Fd as [y Fy].
  assert (S : exists s', step E s (EvClient d) = Some s').
  { cbn [step]. rewrite P. destruct (s_conns s) as [|k0 ks] eqn:Kc; [destruct (s_clients s); [destruct Hx|eauto]|]. rewrite Fy.
    destruct (ch_up (s_ch s d)) as [|[n o] q] eqn:U.
    - destruct (ch_client (s_ch s d)) eqn:C; [exfalso; apply Nd; split; assumption|eauto].
    - destruct (if asks o then r_put (okey o) n (s_res s) else (s_res s, [])). eauto. }
  destruct S as [s' S]. exists d, s'. rewrite (clients_at E h s _ H). conjs; auto.
  apply (polled_snoc E rank h _ s Po H). intros e He. rewrite (clients_at E h s _ H), Bd in He. auto.
Qed.
Print Assumptions C76_some_client_can_be_served.
Lemma least {A} (P : A -> Prop) (dec : forall x, {P x} + {~ P x}) (r : A -> nat) l : (exists x, In x l /\ P x) -> exists x, In x l /\ P x /\ forall y, In y l -> P y -> (r x <= r y)%nat.
Proof.
  induction l as [|z l IH]; intros (x & X & Px); [destruct X|].
  assert (D : (exists w, In w l /\ P w) \/ forall w, In w l -> ~ P w).
  { clear - dec. induction l as [|w l IH]; [right; intros w []|]. destruct (dec w) as [D|D]; [left; exists w; split; [now left|exact D]|]. destruct IH as [(v & V & Pv)|N]; [left; exists v; split; [now right|exact Pv]|]. right. intros v [<-|V]; auto. }
  destruct D as [D|D].
  - destruct (IH D) as (m & M & Pm & Lm). destruct (dec z) as [Pz|Nz]; [destruct (Nat.le_gt_cases (r m) (r z)) as [L|L]|].
    + exists m. split; [now right|]. split; [exact Pm|]. intros y [<-|Y] Py; auto.
    + exists z. split; [now left|]. split; [exact Pz|]. intros y [<-|Y] Py; [lia|]. specialize (Lm y Y Py). lia.
    + exists m. split; [now right|]. split; [exact Pm|]. intros y [<-|Y] Py; [contradiction|auto].
  - destruct X as [->|X]; [|exfalso; exact (D x X Px)]. exists x. split; [now left|]. split; [exact Px|]. intros y [<-|Y] Py; [lia|exfalso; exact (D y Y Py)].
Qed.
Lemma busy_dec s a : {busy_conn s a} + {~ busy_conn s a}.
Proof.
  destruct (get_conn a (s_conns s)) as [k|] eqn:K; [|right; intros (k & X & _); congruence].
  destruct (k_n2e k) eqn:N; [destruct (k_alive k) eqn:Al|].
  - right. intros (k' & X & Y). assert (k' = k) by congruence. subst k'. apply Y. auto.
  - left. exists k. split; [exact K|]. intros [_ X]. congruence.
  - left. exists k. split; [exact K|]. intros [X _]. congruence.
Qed.
Theorem C76_some_connection_can_be_read : forall E rank h s a, reach E h s -> as_polled E rank h -> s_phase s = PRun -> registered (s_log s) <> [] -> busy_conn s a ->
  exists b s', busy_conn s b /\ (rank (length (s_conns s)) b <= rank (length (s_conns s)) a)%nat /\ step E s (EvConn b) = Some s' /\ as_polled E rank (h ++ [EvConn b]).
Proof.
  intros E rank h s a H Po P R Bu. rewrite (g_reg s (reach_gate E h s H)) in R.
  assert (In0 : forall b, busy_conn s b -> In b (map fst (s_conns s))) by (intros b (k & K & _); exact (get_conn_in b k _ K)).
  destruct (least (busy_conn s) (busy_dec s) (rank (length (s_conns s))) (map fst (s_conns s))) as (b & Ib & Bb & Lb); [exists a; auto|].
  assert (S : exists s', step E s (EvConn b) = Some s').
  { destruct Bb as (k & K & N). cbn [step]. rewrite P, K. destruct (s_clients s) as [|x xs] eqn:X; [exfalso; apply R; unfold pairs; now rewrite X|].
    destruct (k_n2e k) as [|[ser i] q] eqn:Q; [|eauto]. destruct (k_alive k) eqn:A; [exfalso; apply N; auto|eauto]. }
  destruct S as [s' S]. exists b, s'. conjs; auto.
  apply (polled_snoc E rank h _ s Po H). intros d Hd L k K. destruct (k_n2e k) eqn:Q; [destruct (k_alive k) eqn:A; [auto|]|];
    (exfalso; assert (Y : busy_conn s d) by (exists k; split; [exact K|]; intros [X1 X2]; congruence); specialize (Lb d Hd Y); lia).
Qed.
Print Assumptions C76_some_connection_can_be_read.

(** Client 1, registered after client 0, has had its ack taken in between; then both
    have requests waiting. *)
Definition x_first : list event := x_reg2 ++ x_connect 0%nat ++ x_connect 1%nat ++ [EvIssue 1%nat (OFlow 1 9); EvIssue 0%nat (OFlow 0 9); EvIssue 0%nat (x_ack 0)].
Definition x_then : list event := [EvClient 0%nat; EvIssue 1%nat (x_ack 1)].
Example C76_case : exists s1 s2, reach xE x_first s1 /\ run xE s1 x_then = Some s2 /\ (forall rank, as_polled xE rank (x_first ++ x_then)) /\
  ch_up (s_ch s1 0%nat) = [(3%nat, OFlow 0 9)] ++ (4%nat, x_ack 0) :: [] /\ ~ In 4%nat (takes (s_log s2)) /\ count (serves 0%nat) x_then = 1%nat /\
  clients_before 1%nat (s_log s2) = [0%nat] /\ length (ch_up (s_ch s2 1%nat)) = 2%nat.
Proof.
  unfold reach. destruct (run xE sys_init x_first) as [s1|] eqn:R; [|vm_compute in R; discriminate]. vm_compute in R. injection R as <-.
  do 2 eexists. split; [reflexivity|]. split; [vm_compute; reflexivity|]. split; [apply orderly_polled; vm_compute; reflexivity|]. split; [vm_compute; reflexivity|].
  split; [vm_compute; intros X; repeat (destruct X as [X|X]; [discriminate X|]); exact X|]. split; [reflexivity|]. split; vm_compute; reflexivity.
Qed.
(** The bound of one is met: the engine has polled client 0 and found nothing; then
    client 0 makes a request and the engine polls client 1. The schedule is one of the
    code although client 0 is not idle when client 1 is served. *)
Definition x_polled : list event := x_reg2 ++ x_connect 0%nat ++ x_connect 1%nat ++ [EvIssue 1%nat (OFlow 1 9)].
Definition x_late : list event := x_polled ++ [EvIssue 0%nat (OFlow 0 9)].
Example C76_one : exists s1 s2, reach xE x_late s1 /\ run xE s1 [EvClient 1%nat] = Some s2 /\ (forall rank, as_polled xE rank (x_late ++ [EvClient 1%nat])) /\
  ch_up (s_ch s1 0%nat) = [] ++ (3%nat, OFlow 0 9) :: [] /\ ~ In 3%nat (takes (s_log s2)) /\ count (serves_after 0%nat (s_log s2)) [EvClient 1%nat] = 1%nat.
Proof.
  assert (Po : forall rank, as_polled xE rank (x_late ++ [EvClient 1%nat])).
  { intros rank h1 e h2 t X Rt. apply last_split in X as [(-> & -> & ->)|(g & -> & X)].
    - intros d D. assert (C : option_map (fun s => clients_before 1%nat (s_log s)) (run xE sys_init x_late) = Some [0%nat]) by (vm_compute; reflexivity).
      unfold reach in Rt. rewrite Rt in C. cbn [option_map] in C. injection C as C. rewrite C in D. destruct D as [<-|[]].
      destruct (run xE sys_init x_polled) as [u|] eqn:Ru; [|vm_compute in Ru; discriminate].
      exists x_polled, [EvIssue 0%nat (OFlow 0 9)], u. split; [reflexivity|]. split; [intros e [<-|[]]; reflexivity|]. split; [exact Ru|].
      vm_compute in Ru. injection Ru as <-. split; reflexivity.
    - exact (orderly_polled xE x_late ltac:(vm_compute; reflexivity) rank h1 e g t X Rt). }
  unfold reach. destruct (run xE sys_init x_late) as [s1|] eqn:R; [|vm_compute in R; discriminate]. vm_compute in R. injection R as <-.
  do 2 eexists. split; [reflexivity|]. split; [vm_compute; reflexivity|]. split; [exact Po|]. split; [vm_compute; reflexivity|].
  split; [vm_compute; intros X; repeat (destruct X as [X|X]; [discriminate X|]); exact X|vm_compute; reflexivity].
Qed.
(** Client 0 is idle, client 1 waits: the hypotheses of C76_no_bound_on_earlier_clients. *)
Example C76_starving : exists s k, reach xE x_polled s /\ (forall rank, as_polled xE rank x_polled) /\ newids x_polled <= 2 ^ 64 /\ s_phase s = PRun /\ In (0%nat, 0) (registered (s_log s)) /\
  v_home (look xA 0%nat (s_log s)) = Some xA /\ get_conn xA (s_conns s) = Some k /\ k_alive k = true /\ ch_use (s_ch s 0%nat) = true /\ idle_client 0%nat s /\
  clients_before 0%nat (s_log s) = [] /\ api_request 0 (x_ack 0) = true /\ api_request 0 (OFlow 0 9) = true /\ length (ch_up (s_ch s 1%nat)) = 1%nat.
Proof.
  unfold reach. destruct (run xE sys_init x_polled) as [s|] eqn:R; [|vm_compute in R; discriminate]. vm_compute in R. injection R as <-.
  do 2 eexists. split; [reflexivity|]. split; [apply orderly_polled; vm_compute; reflexivity|]. split; [vm_compute; discriminate|]. split; [reflexivity|]. split; [vm_compute; auto|].
  split; [vm_compute; reflexivity|]. split; [vm_compute; reflexivity|]. split; [reflexivity|]. split; [vm_compute; reflexivity|]. split; [split; vm_compute; reflexivity|]. repeat split; vm_compute; reflexivity.
Qed.
(** Client 0 is dropped while client 1 has requests queued. *)
Definition x_dropped : list event := x_reg2 ++ x_connect 0%nat ++ x_connect 1%nat ++ [EvIssue 1%nat (OFlow 1 9); EvIssue 1%nat (x_ack 1); EvIssue 0%nat (OFlow 0 9); EvDropClient 0%nat].
Example C76_dropped : exists s1 s2, reach xE x_dropped s1 /\ run xE s1 [EvClient 0%nat; EvClient 0%nat] = Some s2 /\ (forall rank, as_polled xE rank (x_dropped ++ [EvClient 0%nat; EvClient 0%nat])) /\
  In (0%nat, 0) (registered (s_log s1)) /\ ch_client (s_ch s1 0%nat) = false /\ length (ch_up (s_ch s2 1%nat)) = 2%nat /\ In OStop (s_log s2).
Proof.
  unfold reach. destruct (run xE sys_init x_dropped) as [s1|] eqn:R; [|vm_compute in R; discriminate]. vm_compute in R. injection R as <-.
  do 2 eexists. split; [reflexivity|]. split; [vm_compute; reflexivity|]. split; [apply orderly_polled; vm_compute; reflexivity|]. split; [vm_compute; auto|].
  split; [vm_compute; reflexivity|]. split; [vm_compute; reflexivity|]. vm_compute. repeat first [left; reflexivity|right].
Qed.
(** Two connections, each with an event waiting, the configured broker's polled first. *)
Definition x_both : list event := x_reg2 ++ x_connect 0%nat ++ [EvIssue 0%nat x_pc; EvClient 0%nat; EvDial true; EvWrite x_pA 0 true; EvNet x_pA f_connected; EvAnswered;
  EvNet xA (f_msg 1 9 (str "a")); EvNet xA (f_msg 1 9 (str "b")); EvNet x_pA (f_msg 0 9 (str "c"))].
Definition x_rank (n : nat) (a : baddr) : nat := if baddr_eqb a xA then 0 else 1.
Example C76_connections : exists s1 s2 k, reach xE x_both s1 /\ run xE s1 [EvConn xA] = Some s2 /\ as_polled xE x_rank (x_both ++ [EvConn xA]) /\ length (s_conns s2) = length (s_conns s1) /\
  get_conn xA (s_conns s1) = Some k /\ (exists i j, k_n2e k = [(2%nat, i)] ++ (3%nat, j) :: [] /\ ~ In (OHandle xA 3%nat j) (s_log s2)) /\
  reads_after (x_rank 2) xA (EvConn x_pA) = true /\ busy_conn s1 x_pA.
Proof.
  assert (Po : as_polled xE x_rank x_both) by (apply orderly_polled; vm_compute; reflexivity).
  unfold reach. destruct (run xE sys_init x_both) as [s1|] eqn:R; [|vm_compute in R; discriminate].
  assert (Po2 : as_polled xE x_rank (x_both ++ [EvConn xA])).
  { apply (polled_snoc xE x_rank x_both _ s1 Po R). intros b _ L. exfalso. unfold x_rank in L. rewrite baddr_eqb_refl in L. lia. }
  vm_compute in R. injection R as <-. do 3 eexists. split; [reflexivity|]. split; [vm_compute; reflexivity|]. split; [exact Po2|]. split; [vm_compute; reflexivity|]. split; [vm_compute; reflexivity|].
  split; [do 2 eexists; split; [vm_compute; reflexivity|]; vm_compute; intros X; repeat (destruct X as [X|X]; [discriminate X|]); exact X|].
  split; [vm_compute; reflexivity|]. eexists. split; [vm_compute; reflexivity|]. intros [X _]. discriminate.
Qed.
