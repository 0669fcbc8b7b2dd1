(** C44: registration. *)
From Verif Require Import Bytes Errors Wire Proto Codec Address Message Client SpecKeys Engine SpecEngine SpecEngine2 EngineFacts EngineInv EngineReq EngineEv EngineConn EngineLog EngineView EngineQueue EngineRoute EngineGate EngineLife EngineEx PropMessage PropEngine PropEngine2 PropEngine3.
Open Scope N_scope.

(** Every call of [register] is made while no other one is in progress, and none is
    abandoned. *)
Definition in_turn (E : env) (h : list event) : Prop :=
  (forall h1 id t h2 s1, h = h1 ++ EvRegister id t :: h2 -> reach E h1 s1 -> s_waiting s1 = []) /\ forall c, ~ In (EvCancelReg c) h.

Definition regs (s : sys) := (s_waiting s, s_acks s, s_regq s).
Definition manages (e : event) : bool := match e with EvRegister _ _ | EvConfirm _ | EvCancelReg _ | EvReg => true | _ => false end.
Lemma stop_regs s : regs (stop s) = regs s.
Proof. rewrite stop_eq. reflexivity. Qed.
Lemma moved_regs E s id c : regs (moved E s id c) = regs s.
Proof. unfold moved. destruct (baddr_eqb _ _); reflexivity. Qed.
Lemma regs_fwd s id n o s' : fwd s id n o s' -> regs s' = regs s.
Proof. intros F. destruct F; [reflexivity|apply stop_regs]. Qed.
Lemma regs_sent s a ser i s' : sent s a ser i s' -> regs s' = regs s.
Proof. intros F. destruct F; reflexivity. Qed.
Lemma regs_trans E s e s' : trans E s e s' -> manages e = false -> regs s' = regs s.
Proof.
  intros T M. destruct T; try discriminate; try reflexivity; try (rewrite stop_regs; reflexivity).
  - unfold regs. pj. now rewrite H0.
  - unfold regs. pj. now rewrite H0.
  - rewrite (regs_fwd _ _ _ _ _ H5). reflexivity.
  - rewrite (regs_fwd _ _ _ _ _ H6), moved_regs. reflexivity.
  - rewrite (regs_fwd _ _ _ _ _ H1), moved_regs. reflexivity.
  - rewrite (regs_fwd _ _ _ _ _ H0), moved_regs. reflexivity.
  - rewrite (regs_sent _ _ _ _ _ H0). reflexivity.
  - rewrite (regs_sent _ _ _ _ _ H4). reflexivity.
Qed.
Definition unused (E : env) (s : sys) (c : nat) : Prop := v_mine (look (svc E) c (s_log s)) = [].
Definition home (E : env) (s : sys) (c : nat) : Prop :=
  v_home (look (svc E) c (s_log s)) = Some (svc E) /\ exists id, v_id (look (svc E) c (s_log s)) = Some id /\ In (c, id) (registered (s_log s)).
Inductive turn (E : env) (s : sys) : Prop :=
| turn_none : s_waiting s = [] -> s_acks s = O -> (s_regq s = [] \/ s_phase s = PStop) -> turn E s
| turn_queued c id t : s_waiting s = [c] -> s_acks s = O -> s_regq s = [(c, id, t)] -> unused E s c -> turn E s
| turn_taken c : s_waiting s = [c] -> s_acks s = 1%nat -> s_regq s = [] -> unused E s c -> home E s c -> turn E s.

Lemma look_still sv c l l' : v_mine (look sv c l) = [] -> (forall n o, ~ In (OIssue c n o) l') -> (forall id, ~ In (OReg c id) l') ->
  v_mine (look sv c (l ++ l')) = [] /\ v_home (look sv c (l ++ l')) = v_home (look sv c l) /\ v_id (look sv c (l ++ l')) = v_id (look sv c l).
Proof.
  intros H. induction l' as [|x l' IH] using rev_ind; intros A B; [rewrite app_nil_r; auto|].
  destruct IH as (I1 & I2 & I3); [intros n o X; apply (A n o), in_app_iff; auto|intros id X; apply (B id), in_app_iff; auto|].
  rewrite app_assoc, look_end. destruct x; cbn [look_step]; auto.
  - destruct (Nat.eqb_spec h c) as [->|]; auto. exfalso. apply (A n o), in_app_iff. right. now left.
  - destruct o; auto. rewrite I1. cbn. auto.
  - destruct i; auto. destruct (_ && _); auto.
  - destruct i; auto. destruct (h =? c)%nat; auto.
  - destruct (Nat.eqb_spec h c) as [->|]; auto. exfalso. apply (B id), in_app_iff. right. now left.
Qed.
Lemma registered_in l c id : In (c, id) (registered l) <-> In (OReg c id) l.
Proof.
  unfold registered. rewrite in_flat_map. split.
  - intros (x & X & Y). destruct x; cbn in Y; try contradiction. destruct Y as [[= -> ->]|[]]. exact X.
  - intros X. exists (OReg c id). split; auto. now left.
Qed.
(** Entries: a confirmed client is registered, at the configured broker. *)
Definition sound (E : env) (l1 : list obs) (x : obs) (l2 : list obs) : Prop :=
  match x with
  | OConfirm c => v_mine (look (svc E) c l1) = [] /\ v_home (look (svc E) c l1) = Some (svc E) /\ exists id, v_id (look (svc E) c l1) = Some id /\ In (OReg c id) l1
  | _ => True end.
Lemma trans_confirm E s e s' : trans E s e s' -> exists l, s_log s' = s_log s ++ l /\
  ((forall c, ~ In (OConfirm c) l) \/ exists c, e = EvConfirm c /\ l = [OConfirm c]).
Proof.
  intros T. cases T; pj; rewrite ?moved_log; pj; rewrite <- ?app_assoc;
    try (exists []; rewrite app_nil_r; split; [reflexivity|left; cbn; tauto]);
    (eexists; split; [reflexivity|]);
    try (right; eexists; split; reflexivity);
    left; intros ? Hin; cbn in Hin; rewrite ?in_app_iff in Hin;
    repeat (match goal with
            | H : _ \/ _ |- _ => destruct H
            | H : In _ (ends_log _ _) |- _ => apply ends_log_cancel in H as [? ?]
            | H : In _ (cancel_all _) |- _ => apply cancel_all_cancel in H as [? ?]
            | H : In _ (_ :: _) |- _ => destruct H
            | H : In _ (_ ++ _) |- _ => apply in_app_iff in H
            | H : In _ [] |- _ => destruct H
            | H : In _ (if ?b then _ else _) |- _ => destruct b
            | H : False |- _ => destruct H
            end; try discriminate; auto).
Qed.
Lemma app_same {A} (l a b c : list A) : c = l ++ a -> c = l ++ b -> a = b.
Proof. intros -> H. now apply app_inv_head in H. Qed.
Lemma newids_le h e : newids h <= newids (h ++ [e]).
Proof. rewrite newids_snoc. destruct (is_newid e); lia. Qed.
Lemma turn_step E h s e s' : reach E h s -> reach E (h ++ [e]) s' -> newids (h ++ [e]) <= two64 -> trans E s e s' ->
  (forall id t, e = EvRegister id t -> s_waiting s = []) -> (forall c, e <> EvCancelReg c) ->
  turn E s -> turn E s' /\ (forall l, s_log s' = s_log s ++ l -> chunk (sound E) (s_log s) l).
Proof.
  intros R R' Hn T Hr Hc Tu. pose proof (reach_all E h s R) as I. pose proof (inv_trans E s e s' I T) as I'. pose proof (v_h E s I) as Hh.
  pose proof (reach_routes E _ s' R' Hn) as Rt.
  assert (Hstop : s_phase s = PStop -> s_phase s' = PStop) by (apply (stop_stays E s e s' I T)).
  destruct (trans_issue E s e s' T) as (l & El & Li). destruct (trans_oreg E s e s' T) as (lo & Elo & Lo).
  assert (lo = l) by (eapply app_same; eauto). subst lo.
  destruct (trans_confirm E s e s' T) as (lc & Elc & Lc). assert (lc = l) by (eapply app_same; eauto). subst lc. clear Elo Elc.
  assert (Wi : forall c, In c (s_waiting s) -> forall n o, ~ In (OIssue c n o) l).
  { intros c X n o Y. destruct (h_wait s Hh c X) as [_ Z]. destruct (Li c n o Y) as (_ & _ & Z'). congruence. }
  assert (Hm : forall c, home E s c -> forall id, ~ In (OReg c id) l).
  { intros c (_ & id & X & _) id' Y. apply in_split in Y as (p1 & p2 & ->). rewrite app_assoc in El. pose proof (Rt _ _ _ El) as Z. cbn in Z.
    destruct Lo as [Lo|(_ & _ & c0 & id0 & l0 & L0 & Lo)]; [apply (Lo c id'), in_elt|].
    destruct p1 as [|y p1]; [|injection L0 as _ L0; apply (Lo c id'); rewrite <- L0; apply in_elt]. rewrite app_nil_r in Z. congruence. }
  assert (Keep : forall c, In c (s_waiting s) -> unused E s c -> (forall id, ~ In (OReg c id) l) -> unused E s' c /\ (home E s c -> home E s' c)).
  { intros c X Y Z. unfold unused, home in *. rewrite El. destruct (look_still (svc E) c (s_log s) l Y (Wi c X) Z) as (A1 & A2 & A3).
    split; auto. intros (B1 & id & B2 & B3). rewrite A2, A3. split; auto. exists id. split; auto. rewrite registered_app. apply in_app_iff. auto. }
  split.
  - destruct (manages e) eqn:M.
    + destruct e; try discriminate; inversion T; subst; clear T.
      * destruct Tu as [T1 T2 T3|c id0 t T1 T2 T3 T4|c T1 T2 T3 T4 T5]; try (specialize (Hr _ _ eq_refl); congruence).
        destruct T3 as [T3|T3]; [|contradiction].
        apply (turn_queued E _ (s_nh s) id topic); pj; rewrite ?T1, ?T2, ?T3; auto.
        unfold unused. pj. destruct (v_mine (look (svc E) (s_nh s) (s_log s))) as [|n q] eqn:X; auto. exfalso.
        destruct (mine_issue (svc E) (s_nh s) n (s_log s)) as [q0 Q]; [rewrite X; apply is_in_spec; now left|].
        destruct (c_api E s (v_c E s I) _ _ _ Q) as [Z _]. lia.
      * destruct Tu as [T1 T2 T3|c id0 t T1 T2 T3 T4|c T1 T2 T3 T4 T5]; try (specialize (Hr _ _ eq_refl); congruence).
        apply turn_none; pj; auto.
      * destruct Tu as [T1 T2 T3|c id0 t T1 T2 T3 T4|c T1 T2 T3 T4 T5]; try congruence.
        rewrite T1 in H0. apply is_in_spec in H0. destruct H0 as [->|[]]. assert (m = O) by congruence. subst m.
        apply turn_none; pj; auto. rewrite T1. unfold remove_h. cbn. now rewrite Nat.eqb_refl.
      * destruct Tu as [T1 T2 T3|c id0 t T1 T2 T3 T4|c T1 T2 T3 T4 T5]; try congruence.
        -- rewrite T1 in H0. discriminate.
        -- rewrite T1 in H0. apply is_in_spec in H0. destruct H0 as [->|[]].
           apply turn_none; pj; auto. rewrite T1. unfold remove_h. cbn. now rewrite Nat.eqb_refl.
      * exfalso. eapply Hc; reflexivity.
      * destruct Tu as [T1 T2 T3|c id0 t T1 T2 T3 T4|c T1 T2 T3 T4 T5]; try congruence; [destruct T3; congruence|].
        assert (X : (h0, id, topic, q) = (c, id0, t, [])) by congruence. injection X as -> -> -> ->.
        apply (turn_taken E _ c); pj; auto.
        -- unfold unused in *. pj. rewrite look_end. cbn [look_step]. rewrite Nat.eqb_refl. exact T4.
        -- unfold home. pj. rewrite look_end. cbn [look_step]. rewrite Nat.eqb_refl. cbn. split; auto. exists id0. split; auto.
           rewrite registered_app. apply in_app_iff. right. now left.
      * destruct Tu as [T1 T2 T3|c id0 t T1 T2 T3 T4|c T1 T2 T3 T4 T5]; try congruence; [destruct T3; congruence|].
        match goal with X : s_mgr s = false |- _ => rewrite (h_mgr s Hh X) in T1 end. discriminate.
      * destruct Tu as [T1 T2 T3|c id0 t T1 T2 T3 T4|c T1 T2 T3 T4 T5].
        -- apply turn_none; auto; rewrite stop_eq; pj; auto.
        -- congruence.
        -- match goal with X : s_mgr s = false |- _ => rewrite (h_mgr s Hh X) in T1 end. discriminate.
      * exact Tu.
    + pose proof (regs_trans E s e s' T M) as Rg. unfold regs in Rg. injection Rg as R1 R2 R3.
      assert (NoR : forall c id, ~ In (OReg c id) l).
      { destruct Lo as [Lo|(_ & -> & _)]; auto. discriminate. }
      destruct Tu as [T1 T2 T3|c id0 t T1 T2 T3 T4|c T1 T2 T3 T4 T5].
      * apply turn_none; try congruence. destruct T3; [left; congruence|auto].
      * apply (turn_queued E _ c id0 t); try congruence. apply Keep; auto. rewrite T1. now left.
      * apply (turn_taken E _ c); try congruence; apply Keep; auto; rewrite T1; now left.
  - intros l' El'. assert (l' = l) by (eapply app_same; eauto). subst l'. destruct Lc as [Lc|(c & -> & ->)].
    + apply chunk_all. intros l1 x l2 Hx. destruct x; cbn; auto. exfalso. eapply Lc; eauto.
    + cbn. split; auto. inversion T; subst; clear T.
      * destruct Tu as [T1 T2 T3|c0 id0 t T1 T2 T3 T4|c0 T1 T2 T3 T4 T5]; try congruence.
        rewrite T1 in H0. apply is_in_spec in H0. destruct H0 as [->|[]]. split; [exact T4|]. destruct T5 as (A & id & B & C). split; auto. exists id. split; auto. now apply registered_in.
      * cbn in El. apply app_inv_head in El. discriminate.
Qed.
Lemma in_turn_prefix E h e : in_turn E (h ++ [e]) -> in_turn E h.
Proof.
  intros [A B]. split.
  - intros h1 id t h2 s1 X. apply (A h1 id t (h2 ++ [e]) s1). rewrite X, <- app_assoc. reflexivity.
  - intros c X. apply (B c), in_app_iff. auto.
Qed.
Lemma in_turn_spec E h s : reach E h s -> in_turn E h -> newids h <= two64 -> turn E s /\ every (sound E) (s_log s).
Proof.
  intros H. refine (proj2 (run_ind E (fun h s => in_turn E h -> newids h <= two64 -> turn E s /\ every (sound E) (s_log s)) sys_init (wf_init E) _ _ h s H)).
  - intros _ _. split; [apply turn_none; auto|]. intros l1 x l2 X. destruct l1; discriminate.
  - intros g t e t' Hg Wt IH Hs T Wt' It Hn. pose proof (newids_le g e) as Hle. destruct IH as [Tu Ev]; [eapply in_turn_prefix; eauto|lia|].
    assert (Hg' : reach E (g ++ [e]) t') by (unfold reach; rewrite run_app, Hg; cbn [run]; rewrite Hs; reflexivity).
    destruct (turn_step E g t e t' Hg Hg' Hn T) as [A B]; auto.
    + intros id tp ->. apply (proj1 It g id tp [] t); auto.
    + intros c ->. apply (proj2 It c), in_elt.
    + split; auto. destruct (trans_confirm E t e t' T) as (l & El & _). rewrite El. apply every_app; auto. intros l1 x l2 c2. destruct x; cbn; auto.
Qed.
(** * C44 *)
(** From the registration on the client has its id and is assigned to the configured broker. *)
Theorem C44_registration_routable : forall E h s l1 c id l2, reach E h s -> newids h <= 2 ^ 64 -> s_log s = l1 ++ OReg c id :: l2 ->
  v_id (look (broker_address (e_cfg E)) c (l1 ++ [OReg c id])) = Some id /\
  v_home (look (broker_address (e_cfg E)) c (l1 ++ [OReg c id])) = Some (broker_address (e_cfg E)).
Proof. intros E h s l1 c id l2 H Hn El. rewrite (C38_starts_empty E h s l1 c id l2 H Hn El). split; reflexivity. Qed.
(** When registrations are made one after another, a confirmed client has been
    registered, and is assigned to the configured broker when it is confirmed. *)
Theorem C44_confirmed_is_routable : forall E h s l1 c l2, reach E h s -> newids h <= 2 ^ 64 -> in_turn E h -> s_log s = l1 ++ OConfirm c :: l2 ->
  exists id, In (OReg c id) l1 /\ v_id (look (broker_address (e_cfg E)) c l1) = Some id /\
    v_home (look (broker_address (e_cfg E)) c l1) = Some (broker_address (e_cfg E)).
Proof.
  intros E h s l1 c l2 H Hn It El. destruct (proj2 (in_turn_spec E h s H It Hn) _ _ _ El) as (_ & A & id & B & C). exists id. auto.
Qed.
(** However they are made, there are never more confirmations than registrations. *)
Theorem C44_confirmations_bounded : forall E h s, reach E h s -> (length (confirmed (s_log s)) <= length (registered (s_log s)))%nat.
Proof. intros E h s H. pose proof (g_cnt s (reach_gate E h s H)). lia. Qed.
Print Assumptions C44_registration_routable.
Print Assumptions C44_confirmed_is_routable.
Print Assumptions C44_confirmations_bounded.
Lemma in_turn_dec E h : (forall h1 id t h2, h = h1 ++ EvRegister id t :: h2 -> match run E sys_init h1 with Some s => s_waiting s = [] | None => True end) ->
  forallb (fun e => match e with EvCancelReg _ => false | _ => true end) h = true -> in_turn E h.
Proof.
  intros A B. split.
  - intros h1 id t h2 s1 X R. specialize (A _ _ _ _ X). unfold reach in R. now rewrite R in A.
  - intros c X. rewrite forallb_forall in B. now specialize (B _ X).
Qed.
Example x_reg2_in_turn : in_turn xE x_reg2.
Proof.
  apply in_turn_dec; [|reflexivity]. intros h1 id t h2 X. unfold x_reg2 in X.
  do 9 (destruct h1 as [|? h1]; [try discriminate X; vm_compute; auto|cbn [app] in X; injection X as <- X]).
  destruct h1; discriminate X.
Qed.
Example C44_meets : exists s, reach xE x_reg2 s /\ newids x_reg2 <= 2 ^ 64 /\ s_log s = [ODial xA true; OReg 0%nat 0; OConfirm 0%nat; OReg 1%nat 1; OConfirm 1%nat].
Proof.
  destruct (xreach x_reg2 [ODial xA true; OReg 0%nat 0; OConfirm 0%nat; OReg 1%nat 1; OConfirm 1%nat]) as (s & A & B); [vm_compute; reflexivity|].
  exists s. split; [exact A|]. split; [vm_compute; discriminate|exact B].
Qed.
(** When two registrations overlap, the confirmation of one may be consumed by the
    other call: client 1 is confirmed although only client 0 is registered, and a
    message for it that is handled before its registration is lost. *)
Definition x_crossed : list event :=
  [EvStart true; EvNewId; EvNewId; EvRegister 0 (str "t"); EvRegister 1 (str "t"); EvReg; EvConfirm 1%nat].
Theorem C44_overlapping_confirmed_early : exists s, reach xE x_crossed s /\ newids x_crossed <= 2 ^ 64 /\
  In (OConfirm 1%nat) (s_log s) /\ (forall id, ~ In (OReg 1%nat id) (s_log s)) /\ v_home (look (broker_address (e_cfg xE)) 1%nat (s_log s)) = None.
Proof.
  destruct (xreach x_crossed [ODial xA true; OReg 0%nat 0; OConfirm 1%nat]) as (s & A & B); [vm_compute; reflexivity|].
  exists s. split; [exact A|]. split; [vm_compute; discriminate|]. rewrite B. split; [cbn; tauto|]. split; [|reflexivity].
  intros id [X|[X|[X|[]]]]; discriminate.
Qed.
Print Assumptions C44_overlapping_confirmed_early.

(** * Dropping the manager *)
Definition unman (s : sys) : sys := with_regs s (s_regq s) (s_acks s) false [].
Lemma unman_ends hs : forall s, drop_engine_ends hs (unman s) = unman (drop_engine_ends hs s).
Proof. induction hs as [|h r IH]; intros s; cbn [drop_engine_ends]; auto. change (s_ch (unman s) h) with (s_ch s h). destruct (ch_client (s_ch s h)); rewrite <- IH; reflexivity. Qed.
Lemma ends_regq hs : forall s, s_regq (drop_engine_ends hs s) = s_regq s.
Proof. induction hs as [|h r IH]; intros s; cbn [drop_engine_ends]; auto. destruct (ch_client (s_ch s h)); rewrite IH; reflexivity. Qed.
Lemma unman_stop s : s_regq s = [] -> stop (unman s) = unman (stop s).
Proof.
  intros Q. unfold stop, regq_handles. change (s_mgr (unman s)) with false. change (s_regq (unman s)) with (s_regq s). rewrite Q. cbn [map drop_engine_ends].
  replace (if s_mgr s then _ else _) with (drop_engine_ends (map rc_h (s_clients s)) (with_res (say (with_phase s PStop) (OStop :: cancel_all (map snd (s_res s)))) [])) by (destruct (s_mgr s); reflexivity).
  rewrite <- unman_ends. reflexivity.
Qed.
Lemma unman_fault s : s_regq s = [] -> fault (unman s) = unman (fault s).
Proof. intros Q. unfold fault. rewrite <- (unman_stop (say s [OFault])); auto. Qed.
Lemma unman_send s a x ok ok' : s_regq s = [] -> (forall t, s_regq t = [] -> ok' (unman t) = unman (ok t)) -> send_conn (unman s) a x ok' = unman (send_conn s a x ok).
Proof.
  intros Q H. unfold send_conn. change (s_conns (unman s)) with (s_conns s). destruct (get_conn a (s_conns s)) as [k|]; [|now apply unman_fault].
  destruct (k_alive k); [|now apply unman_stop]. rewrite <- H; auto.
Qed.
Lemma unman_forward s id n o : s_regq s = [] -> forward (unman s) id n o = unman (forward s id n o).
Proof.
  intros Q. unfold forward. change (s_clients (unman s)) with (s_clients s). destruct (get_client id (s_clients s)) as [c|]; [|now apply unman_fault].
  apply unman_send; auto.
Qed.
Lemma unman_connected E s id n c : s_regq s = [] -> connected_to E (unman s) id n c = unman (connected_to E s id n c).
Proof. intros Q. unfold connected_to. destruct (baddr_eqb _ _); rewrite <- unman_forward; auto. Qed.
Lemma unman_dial E s id n c : s_regq s = [] -> dial_or_go E (unman s) id n c = unman (dial_or_go E s id n c).
Proof. intros Q. unfold dial_or_go. change (s_conns (unman s)) with (s_conns s). destruct (get_conn _ _); auto. now apply unman_connected. Qed.
Lemma unman_outbound E s id n o : s_regq s = [] -> handle_outbound E (unman s) id n o = unman (handle_outbound E s id n o).
Proof. intros Q. unfold handle_outbound. destruct o; try (now apply unman_forward). destruct (e_auth E); auto. now apply unman_dial. Qed.
Lemma unman_push i hs : forall s, push_down i hs (unman s) = unman (push_down i hs s).
Proof. induction hs as [|h r IH]; intros s; cbn [push_down]; auto. change (s_ch (unman s) h) with (s_ch s h). destruct (ch_client (s_ch s h)); rewrite <- IH; reflexivity. Qed.
Lemma unman_manager s a ser i : manager_send (unman s) a ser i = unman (manager_send s a ser i).
Proof. unfold manager_send. change (s_res (unman s)) with (s_res s). destruct (r_resolve _ _) as [[n r]|]; [reflexivity|apply unman_push]. Qed.
Lemma unman_inbound s a ser i : s_regq s = [] -> handle_inbound (unman s) a ser i = unman (handle_inbound s a ser i).
Proof. intros Q. unfold handle_inbound. destruct i; try apply unman_manager. apply unman_send; auto. Qed.
Lemma unman_wake s n w : wake (unman s) n w = unman (wake s n w).
Proof. unfold wake. change (s_phase (unman s)) with (s_phase s). destruct (s_phase s) as [| | | |? ? []|]; auto. destruct (_ =? _)%nat; auto. Qed.
Lemma unman_wake_all ns w : forall s, wake_all ns w (unman s) = unman (wake_all ns w s).
Proof. induction ns as [|n r IH]; intros s; cbn [wake_all]; auto. now rewrite unman_wake, IH. Qed.
Lemma unman_end s a k : conn_end (unman s) a k = unman (conn_end s a k).
Proof. unfold conn_end. rewrite <- unman_wake_all. reflexivity. Qed.
Lemma unman_write E s a k x q now io : conn_write E (unman s) a k x q now io = unman (conn_write E s a k x q now io).
Proof.
  unfold conn_write. destruct (if ci_wait x then _ else _) as [res dropped].
  change (put_conn (unman s) a (mk_conn q (k_n2e k) res (k_alive k) (k_errored k))) with (unman (put_conn s a (mk_conn q (k_n2e k) res (k_alive k) (k_errored k)))).
  rewrite unman_wake_all. destruct (obind _ _); auto. apply unman_end.
Qed.
Lemma unman_net s a k x : conn_net (unman s) a k x = unman (conn_net s a k x).
Proof.
  unfold conn_net. destruct x; auto; try apply unman_end. destruct (to_inbound _) as [j| |]; auto; [|apply unman_end].
  destruct (r_resolve _ _) as [[n res]|].
  - rewrite <- unman_wake. reflexivity.
  - change (s_phase (unman s)) with (s_phase s). destruct (s_phase s); try reflexivity.
    change (say (with_counts (unman s) (s_nreq (unman s)) (S (s_narr (unman s)))) [OArrive a (s_narr (unman s)) j]) with (unman (say (with_counts s (s_nreq s) (S (s_narr s))) [OArrive a (s_narr s) j])). apply unman_end.
Qed.
Definition omap_u (o : option sys) : option sys := match o with Some s => Some (unman s) | None => None end.
Definition spins (e : event) : bool := match e with EvReg => true | _ => false end.
(** Without its manager the engine does the same, except that it may spin. *)
Lemma unman_step E s e s' : s_regq s = [] -> s_waiting s = [] -> spins e = false -> step E (unman s) e = Some s' -> omap_u (step E s e) = Some s'.
Proof.
  intros Q W M H. destruct e; try discriminate M; cbn [step] in *; change (s_mgr (unman s)) with false in H; change (s_waiting (unman s)) with (@nil nat) in H; cbv iota in H; try (cbn in H; discriminate H).
  - change (s_ch (unman s)) with (s_ch s) in H. destruct (_ && _ && _); [|discriminate]. destruct (ch_engine _); exact H.
  - change (s_ch (unman s)) with (s_ch s) in H. destruct (_ && _); [|discriminate]. destruct (ch_down _); [|exact H]. destruct (ch_engine _); [discriminate|exact H].
  - change (s_ch (unman s)) with (s_ch s) in H. destruct (_ && _); [|discriminate]. destruct (ch_engine _); exact H.
  - change (s_phase (unman s)) with (s_phase s) in H. destruct (s_phase s); try discriminate. destruct ok; [exact H|]. cbn. rewrite <- H. f_equal. symmetry. now apply (unman_stop (say s _)).
  - change (s_phase (unman s)) with (s_phase s) in H. destruct (s_phase s); try discriminate.
    change (s_conns (unman s)) with (s_conns s) in H. change (s_clients (unman s)) with (s_clients s) in H. change (s_ch (unman s)) with (s_ch s) in H. change (s_res (unman s)) with (s_res s) in H.
    destruct (s_conns s); [destruct (s_clients s); [discriminate|rewrite unman_fault in H; auto]|].
    destruct (find _ _) as [c|]; [|discriminate]. destruct (ch_up (s_ch s h)) as [|[n o] q].
    + destruct (ch_client _); [discriminate|]. now rewrite unman_stop in H.
    + destruct (if asks o then _ else _) as [res dropped]. cbn [omap_u]. rewrite <- H. f_equal. rewrite <- unman_outbound; auto.
  - change (s_phase (unman s)) with (s_phase s) in H. destruct (s_phase s); try discriminate. destruct r; cbn [omap_u]; rewrite <- H; f_equal.
    + rewrite <- unman_dial; auto.
    + symmetry. now apply (unman_stop (say s _)).
    + symmetry. now apply (unman_stop (say s _)).
  - change (s_phase (unman s)) with (s_phase s) in H. destruct (s_phase s); try discriminate. destruct ok; cbn [omap_u]; rewrite <- H; f_equal.
    + rewrite <- unman_connected; auto.
    + symmetry. now apply (unman_stop (say s _)).
  - change (s_phase (unman s)) with (s_phase s) in H. destruct (s_phase s) as [| | | |? ? []|]; try discriminate; cbn [omap_u]; rewrite <- H; f_equal.
    + rewrite <- unman_manager. reflexivity.
    + symmetry. now apply unman_stop.
  - change (s_phase (unman s)) with (s_phase s) in H. change (s_clients (unman s)) with (s_clients s) in H. change (s_conns (unman s)) with (s_conns s) in H.
    destruct (s_phase s); try discriminate. destruct (s_clients s) eqn:C; try discriminate. destruct (get_conn a (s_conns s)) as [k|]; [|discriminate].
    destruct (k_n2e k) as [|[ser i] q].
    + destruct (k_alive k); [discriminate|]. now rewrite unman_stop in H.
    + cbn [omap_u]. rewrite <- H. f_equal. rewrite <- unman_inbound; auto.
  - change (s_phase (unman s)) with (s_phase s) in H. change (s_conns (unman s)) with (s_conns s) in H.
    destruct (get_conn a (s_conns s)) as [k|]; [|discriminate]. destruct (k_alive k); [|discriminate]. destruct (k_e2n k) as [|x q].
    + destruct (s_phase s); try discriminate. now rewrite unman_end in H.
    + now rewrite unman_write in H.
  - change (s_conns (unman s)) with (s_conns s) in H.
    destruct (get_conn a (s_conns s)) as [k|]; [|discriminate]. destruct (_ && _); [|discriminate]. now rewrite unman_net in H.
Qed.
Lemma reach_snoc E h e s s' : reach E h s -> step E s e = Some s' -> reach E (h ++ [e]) s'.
Proof. intros H Hs. unfold reach. rewrite run_app, H. cbn [run]. now rewrite Hs. Qed.
Lemma clients_some E h s : reach E h s -> registered (s_log s) <> [] -> s_clients s <> [].
Proof. intros H N X. apply N. rewrite (g_reg s (reach_gate E h s H)). unfold pairs. now rewrite X. Qed.
Lemma unman_run E h2 : forall h1 s s', reach E h1 s -> s_regq s = [] -> s_waiting s = [] -> registered (s_log s) <> [] ->
  run E (unman s) h2 = Some s' -> exists t, run E s (filter (fun e => negb (spins e)) h2) = Some t /\ s' = unman t.
Proof.
  induction h2 as [|e h2 IH]; intros h1 s s' R Q W N H; cbn [run] in H.
  - injection H as <-. exists s. auto.
  - destruct (step E (unman s) e) as [u|] eqn:Hs; [|discriminate]. destruct (spins e) eqn:Sp.
    + destruct e; try discriminate Sp. cbn [step] in Hs. change (s_phase (unman s)) with (s_phase s) in Hs. change (s_regq (unman s)) with (s_regq s) in Hs.
      change (s_clients (unman s)) with (s_clients s) in Hs. pose proof (clients_some E h1 s R N) as C. rewrite Q in Hs. cbn in Hs.
      destruct (s_phase s); try discriminate. destruct (s_clients s); [contradiction|]. injection Hs as <-. cbn [filter spins negb]. now apply (IH h1 s s').
    + cbn [filter]. rewrite Sp. cbn [negb run]. pose proof (unman_step E s e u Q W Sp Hs) as X. destruct (step E s e) as [t|] eqn:Ht; [|discriminate]. injection X as <-.
      assert (M : manages e = false).
      { destruct e; auto; try discriminate Sp; cbn [step] in Hs; change (s_mgr (unman s)) with false in Hs; change (s_waiting (unman s)) with (@nil nat) in Hs; discriminate Hs. }
      pose proof (step_trans _ _ _ _ (reach_wf E h1 s R) Ht) as T. pose proof (regs_trans E s e t T M) as G. unfold regs in G. injection G as G1 _ G2.
      destruct (trans_confirm E s e t T) as (l & El & _).
      apply (IH (h1 ++ [e]) t s'); try congruence; auto.
      * now apply (reach_snoc E h1 e s).
      * rewrite El, registered_app. intros X. apply app_eq_nil in X as [X _]. contradiction.
Qed.
(** Dropping the manager of a running engine that has clients changes nothing anyone
    observes afterwards: what happens after it also happens without it. *)
Definition engine_idle (e : event) : bool := match e with EvReg => true | _ => false end.
Theorem C44_manager_drop_invisible : forall E h1 h2 s1 s, reach E h1 s1 -> reach E (h1 ++ EvDropManager :: h2) s -> newids h1 <= 2 ^ 64 -> in_turn E h1 ->
  ~ In OStop (s_log s1) -> registered (s_log s1) <> [] ->
  exists s', reach E (h1 ++ filter (fun e => negb (engine_idle e)) h2) s' /\ s_log s' = s_log s /\
    (forall c, s_ch s' c = s_ch s c) /\ s_phase s' = s_phase s /\ s_clients s' = s_clients s /\ s_res s' = s_res s /\ s_conns s' = s_conns s.
Proof.
  intros E h1 h2 s1 s R1 R Hn It Hs Hr. unfold reach in R. rewrite run_app, R1 in R. cbn [run] in R.
  pose proof (reach_all E h1 s1 R1) as I. assert (Hp : s_phase s1 <> PStop) by (intros X; apply Hs; now apply (i_stop s1 (v_s E s1 I))).
  destruct (step E s1 EvDropManager) as [u|] eqn:Hu; [|discriminate]. cbn [step] in Hu.
  destruct (s_mgr s1) eqn:Hm; [|discriminate]. destruct (s_waiting s1) eqn:Hw; [|discriminate].
  assert (Eu : u = unman s1) by (destruct (s_phase s1); injection Hu as <-; try reflexivity; contradiction). subst u. clear Hu.
  destruct (proj1 (in_turn_spec E h1 s1 R1 It Hn)) as [_ _ [Q|Q]|? ? ? X|? X]; try congruence.
  destruct (unman_run E h2 h1 s1 s R1 Q Hw Hr R) as (t & Rt & ->).
  exists t. unfold reach. rewrite run_app, R1. split; [exact Rt|]. repeat split; reflexivity.
Qed.
Print Assumptions C44_manager_drop_invisible.
(** When the engine has ended already: registered clients keep what they have. *)
Theorem C44_manager_drop_after_end : forall E h s s' c id, reach E h s -> step E s EvDropManager = Some s' -> In (c, id) (registered (s_log s)) -> s_ch s' c = s_ch s c.
Proof.
  intros E h s s' c id R Hs Hr. pose proof (reach_all E h s R) as I. pose proof (v_h E s I) as Hh.
  rewrite (g_reg s (reach_gate E h s R)) in Hr. apply in_map_iff in Hr as (x & Ex & Hx). injection Ex as <- <-.
  pose proof (step_trans _ _ _ _ (reach_wf E h s R) Hs) as T. inversion T; subst; [reflexivity|]. cbn [s_ch say with_ch]. rewrite ends_ch_at.
  destruct (is_in (rc_h x) (regq_handles s)) eqn:X; auto. apply is_in_spec in X. exfalso.
  apply (NoDup_app_not _ _ (rc_h x) (h_nodup s Hh)); auto. now apply in_map.
Qed.
Print Assumptions C44_manager_drop_after_end.
(** Met: two clients, the manager is dropped, the engine spins once, a request is served. *)
Definition x_unman : list event := x_connect 0%nat ++ [EvReg].
Example C44_drop_meets : exists s1 s, reach xE x_reg2 s1 /\ reach xE (x_reg2 ++ EvDropManager :: x_unman) s /\
  s_log s = s_log s1 ++ [OIssue 0%nat 0%nat (OConnect (mk_connect None None None)); OTake 0%nat;
    OForward 0%nat xA (OConnect (mk_connect None None (Some xA))); OWrite xA (Some 0%nat) (OConnect (mk_connect None None (Some xA))) true;
    OArrive xA 0%nat InConnected; OHandle xA 0%nat InConnected; OAnswer 0%nat 0%nat InConnected] /\ registered (s_log s1) = [(0%nat, 0); (1%nat, 1)] /\ ~ In OStop (s_log s1).
Proof.
  destruct (xreach x_reg2 [ODial xA true; OReg 0%nat 0; OConfirm 0%nat; OReg 1%nat 1; OConfirm 1%nat]) as (s1 & A & B); [vm_compute; reflexivity|].
  edestruct (xreach (x_reg2 ++ EvDropManager :: x_unman)) as (s & C & D); [vm_compute; reflexivity|].
  exists s1, s. split; [exact A|]. split; [exact C|]. rewrite B, D. split; [vm_compute; reflexivity|]. split; [reflexivity|].
  cbn. intros X; repeat destruct X as [X|X]; try discriminate X; exact X.
Qed.
(** A registration that was cancelled but is still queued when the manager is dropped
    ends the engine for everybody. *)
Definition x_cancelled : list event := x_reg2 ++ [EvNewId; EvRegister 2 (str "t"); EvCancelReg 2%nat; EvDropManager; EvReg].
Theorem C44_cancelled_registration_ends_engine : exists s, reach xE x_cancelled s /\ In OStop (s_log s) /\ confirmed (s_log s) = [0%nat; 1%nat] /\
  (forall c, ~ In (EvDropClient c) x_cancelled).
Proof.
  destruct (xwit x_cancelled (fun l => In OStop l /\ confirmed l = [0%nat; 1%nat])) as (s & A & B & C); [vm_compute; tauto|].
  exists s. split; [exact A|]. split; [exact B|]. split; [exact C|]. intros c X. vm_compute in X. repeat destruct X as [X|X]; try discriminate X; exact X.
Qed.
Print Assumptions C44_cancelled_registration_ends_engine.
