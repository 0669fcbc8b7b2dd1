(** Ends: clients that have been dropped, connections that have been lost. *)
From Verif Require Import Bytes Errors Wire Proto Codec Address Message Client Engine SpecEngine SpecEngine2 EngineFacts EngineInv EngineReq EngineEv EngineConn EngineLog.
Open Scope N_scope.

(** How often an event occurs in a schedule. *)
Definition count (f : event -> bool) (h : list event) : nat := length (filter f h).
Definition serves (c : nat) (e : event) : bool := match e with EvClient h => (h =? c)%nat | _ => false end.
Definition reads (a : baddr) (e : event) : bool := match e with EvConn b => baddr_eqb b a | _ => false end.

Lemma stop_ch s x : ch_up (s_ch (stop s) x) = ch_up (s_ch s x) /\ ch_down (s_ch (stop s) x) = ch_down (s_ch s x) /\
  ch_client (s_ch (stop s) x) = ch_client (s_ch s x) /\ ch_use (s_ch (stop s) x) = ch_use (s_ch s x) /\ ch_id (s_ch (stop s) x) = ch_id (s_ch s x).
Proof. rewrite stop_eq. pj. rewrite ends_ch_at. destruct (is_in x _); auto. Qed.
Lemma stop_conns s : s_conns (stop s) = s_conns s.
Proof. rewrite stop_eq. reflexivity. Qed.
Lemma stop_phase s : s_phase (stop s) = PStop.
Proof. rewrite stop_eq. reflexivity. Qed.

(** * A dropped client *)
(** Its queue changes only when the engine serves it. *)
Definition gone_step (s s' : sys) (c : nat) (e : event) : Prop :=
  ch_client (s_ch s' c) = false /\
  (if serves c e then s_phase s' = PStop \/ exists x, ch_up (s_ch s c) = x :: ch_up (s_ch s' c) else ch_up (s_ch s' c) = ch_up (s_ch s c)).
Lemma gone_same s s' c e : serves c e = false -> ch_client (s_ch s c) = false -> s_ch s' c = s_ch s c -> gone_step s s' c e.
Proof. intros H H1 H2. unfold gone_step. rewrite H, H2. auto. Qed.
Lemma gone_stop s s0 c e : serves c e = false -> ch_client (s_ch s c) = false -> s_ch s0 c = s_ch s c -> gone_step s (stop s0) c e.
Proof.
  intros H H1 H2. unfold gone_step. destruct (stop_ch s0 c) as (A & _ & B & _). rewrite H, A, B, H2. auto.
Qed.
Lemma fwd_ch s id n o s' x : fwd s id n o s' -> ch_up (s_ch s' x) = ch_up (s_ch s x) /\ ch_client (s_ch s' x) = ch_client (s_ch s x) /\ ch_use (s_ch s' x) = ch_use (s_ch s x).
Proof. intros F. destruct F; [auto|]. destruct (stop_ch s x) as (A & _ & B & C & _). auto. Qed.
Lemma sent_ch s a ser i s' x : sent s a ser i s' -> ch_client (s_ch s x) = false -> s_ch s' x = s_ch s x.
Proof. intros S H. destruct S; [reflexivity|]. pj. now apply push_ch_gone. Qed.
Lemma gone_take s s1 s' c q h n o id x : ch_client (s_ch s c) = false -> ch_up (s_ch s h) = x :: q ->
  (forall y, s_ch s1 y = set_ch (s_ch s) h (ch_set_up q (s_ch s h)) y) -> fwd s1 id n o s' -> gone_step s s' c (EvClient h).
Proof.
  intros H Hq H1 F. destruct (fwd_ch s1 id n o s' c F) as (A & B & _). unfold gone_step. rewrite A, B, H1. unfold serves, set_ch.
  rewrite (Nat.eqb_sym h c). destruct (Nat.eqb_spec c h) as [->|]; [|auto]. cbn. split; auto. right. exists x. auto.
Qed.
Lemma gone_fwd s s1 s' c id n o e : serves c e = false -> ch_client (s_ch s c) = false -> s_ch s1 c = s_ch s c -> fwd s1 id n o s' -> gone_step s s' c e.
Proof. intros H H1 H2 F. destruct (fwd_ch s1 id n o s' c F) as (A & B & _). unfold gone_step. rewrite H, A, B, H2. auto. Qed.
Lemma taken_ch s h q n res dropped y : s_ch (taken s h q n res dropped) y = set_ch (s_ch s) h (ch_set_up q (s_ch s h)) y.
Proof. reflexivity. Qed.
Lemma trans_gone E s e s' c : hinv s -> trans E s e s' -> (c < s_nh s)%nat -> ch_client (s_ch s c) = false -> gone_step s s' c e.
Proof.
  intros Hh T Hlt Hg.
  destruct T;
    try (apply gone_same; [reflexivity|exact Hg|reflexivity]);
    try (apply gone_stop; [reflexivity|exact Hg|reflexivity]).
  - apply gone_same; auto. pj. unfold set_ch. destruct (Nat.eqb_spec c (s_nh s)) as [Hc|]; [lia|reflexivity].
  - apply gone_same; auto. pj. unfold set_ch. destruct (Nat.eqb_spec c h) as [->|]; [|reflexivity].
    apply is_in_spec in H. apply (h_wait s Hh) in H as [H _]. congruence.
  - apply gone_same; auto. pj. unfold set_ch. destruct (Nat.eqb_spec c h) as [->|]; [|reflexivity].
    apply is_in_spec in H. apply (h_wait s Hh) in H as [H _]. congruence.
  - apply gone_same; auto. pj. unfold set_ch. destruct (Nat.eqb_spec c h) as [->|]; [|reflexivity].
    apply is_in_spec in H. apply (h_wait s Hh) in H as [H _]. congruence.
  - unfold gone_step. pj. rewrite ends_ch_at. destruct (is_in c _); auto.
  - apply gone_same; auto. pj. unfold set_ch. destruct (Nat.eqb_spec c h) as [->|]; [congruence|reflexivity].
  - apply gone_same; auto. pj. unfold set_ch. destruct (Nat.eqb_spec c h) as [->|]; [congruence|reflexivity].
  - apply gone_same; auto. pj. unfold set_ch. destruct (Nat.eqb_spec c h) as [->|]; [congruence|reflexivity].
  - eapply gone_take; eauto. intros; apply taken_ch.
  - unfold gone_step. pj. unfold set_ch. rewrite (Nat.eqb_sym h c). destruct (Nat.eqb_spec c h) as [->|]; [|auto]. cbn. split; auto. right. eexists. eassumption.
  - unfold gone_step. pj. unfold set_ch. rewrite (Nat.eqb_sym h c). destruct (Nat.eqb_spec c h) as [->|]; [|auto]. cbn. split; auto. right. eexists. eassumption.
  - eapply gone_take; eauto. intros; rewrite moved_ch; apply taken_ch.
  - unfold gone_step. destruct (stop_ch s c) as (A & _ & B & _). rewrite A, B. split; auto. destruct (serves c (EvClient h)); auto. left. apply stop_phase.
  - refine (gone_fwd s _ s' c _ _ _ (EvAuth (Ok d)) eq_refl Hg _ H1). now rewrite moved_ch.
  - refine (gone_fwd s _ s' c _ _ _ (EvDial true) eq_refl Hg _ H0). now rewrite moved_ch.
  - apply gone_same; auto. rewrite (sent_ch _ _ _ _ _ c H0); auto.
  - apply gone_same; auto. rewrite (sent_ch _ _ _ _ _ c H4); auto.
Qed.
Lemma stop_stays E s e s' : inv E s -> trans E s e s' -> s_phase s = PStop -> s_phase s' = PStop.
Proof.
  intros I T Hp. apply (i_stop s' (v_s E s' (inv_trans E s e s' I T))). destruct (trans_log E s e s' T) as (c & -> & _).
  apply in_app_iff. left. now apply (i_stop s (v_s E s I)).
Qed.
Lemma run_stop E s h s' : inv E s -> run E s h = Some s' -> s_phase s = PStop -> s_phase s' = PStop.
Proof.
  revert s. induction h as [|e h IH]; intros s I H Hp; cbn [run] in H.
  { congruence. }
  destruct (step E s e) as [s1|] eqn:S; [|discriminate]. pose proof (step_trans _ _ _ _ (v_wf E s I) S) as T.
  apply (IH s1); [exact (inv_trans E s e s1 I T)|exact H|exact (stop_stays E s e s1 I T Hp)].
Qed.
(** The engine serves a dropped client at most as often as it has queued requests,
    then it ends. *)
Lemma gone_bound E s h2 s2 c : inv E s -> run E s h2 = Some s2 -> (c < s_nh s)%nat -> ch_client (s_ch s c) = false ->
  s_phase s2 <> PStop -> (count (serves c) h2 + length (ch_up (s_ch s2 c)) <= length (ch_up (s_ch s c)))%nat.
Proof.
  revert s. induction h2 as [|e h2 IH]; intros s I H Hlt Hg Hp; cbn [run] in H.
  { injection H as ->. cbn. lia. }
  destruct (step E s e) as [s1|] eqn:S; [|discriminate]. pose proof (step_trans _ _ _ _ (v_wf E s I) S) as T.
  destruct (trans_gone E s e s1 c (v_h E s I) T Hlt Hg) as [A B]. pose proof (inv_trans E s e s1 I T) as I1.
  assert (Hp1 : s_phase s1 <> PStop) by (intros X; apply Hp; exact (run_stop E s1 h2 s2 I1 H X)).
  assert (Hlt1 : (c < s_nh s1)%nat).
  { clear - T Hlt. destruct T; try exact Hlt; try (pj; lia); try (rewrite stop_eq; exact Hlt).
    - destruct H5; [exact Hlt|rewrite stop_eq; exact Hlt].
    - destruct H6; rewrite ?stop_eq; pj; rewrite moved_nh; exact Hlt.
    - destruct H1; rewrite ?stop_eq; pj; rewrite moved_nh; exact Hlt.
    - destruct H0; rewrite ?stop_eq; pj; rewrite moved_nh; exact Hlt.
    - destruct H0; exact Hlt.
    - destruct H4; exact Hlt. }
  specialize (IH s1 I1 H Hlt1 A Hp). unfold count in *. cbn [filter]. destruct (serves c e).
  - destruct B as [B|[x B]]; [contradiction|]. rewrite B. cbn [length]. lia.
  - rewrite <- B. exact IH.
Qed.

(** * A lost connection *)
Definition lost_step (s s' : sys) (a : baddr) (e : event) : Prop :=
  exists k k', get_conn a (s_conns s) = Some k /\ get_conn a (s_conns s') = Some k' /\ k_alive k' = false /\
  (if reads a e then s_phase s' = PStop \/ exists x, k_n2e k = x :: k_n2e k' else k_n2e k' = k_n2e k).
Lemma lost_same s s' a k e : reads a e = false -> get_conn a (s_conns s) = Some k -> k_alive k = false -> get_conn a (s_conns s') = Some k -> lost_step s s' a e.
Proof. intros H H1 H2 H3. exists k, k. rewrite H. auto. Qed.
Lemma fwd_conn s id n o s' a k : fwd s id n o s' -> get_conn a (s_conns s) = Some k -> k_alive k = false -> get_conn a (s_conns s') = Some k.
Proof.
  intros F H H1. destruct F; [|now rewrite stop_conns]. pj. rewrite get_set. destruct (baddr_eqb (rc_addr c) a) eqn:X; auto.
  apply baddr_eqb_spec in X. subst a. congruence.
Qed.
Lemma sent_conn s a0 ser i s' a : sent s a0 ser i s' -> get_conn a (s_conns s') = get_conn a (s_conns s).
Proof. intros S. destruct S; reflexivity. Qed.
Lemma put_lost (l : list (baddr * conn)) a0 k0 k1 a k : get_conn a0 l = Some k0 -> k_alive k0 = true -> get_conn a l = Some k -> k_alive k = false ->
  get_conn a (set_conn a0 k1 l) = Some k.
Proof. intros H H1 H2 H3. rewrite get_set. destruct (baddr_eqb a0 a) eqn:X; auto. apply baddr_eqb_spec in X. subst a. congruence. Qed.
Lemma new_lost (l : list (baddr * conn)) a0 k1 a k : get_conn a0 l = None -> get_conn a l = Some k -> get_conn a (set_conn a0 k1 l) = Some k.
Proof. intros H H2. rewrite get_set. destruct (baddr_eqb a0 a) eqn:X; auto. apply baddr_eqb_spec in X. subst a. congruence. Qed.
Lemma trans_lost E s e s' a k : wf E s -> trans E s e s' -> get_conn a (s_conns s) = Some k -> k_alive k = false -> lost_step s s' a e.
Proof.
  intros W T K Hk.
  destruct T;
    try (apply (lost_same _ _ _ k); [reflexivity|exact K|exact Hk|rewrite ?stop_conns; exact K]).
  - apply (lost_same _ _ _ k); auto. pj. destruct (wf_start E s W H) as [_ X]. rewrite X in K. discriminate.
  - apply (lost_same _ _ _ k); auto. now apply (fwd_conn _ _ _ _ _ _ _ H5).
  - apply (lost_same _ _ _ k); auto. apply (fwd_conn _ _ _ _ _ _ _ H6); auto. now rewrite moved_conns.
  - apply (lost_same _ _ _ k); auto. apply (fwd_conn _ _ _ _ _ _ _ H1); auto. now rewrite moved_conns.
  - apply (lost_same _ _ _ k); auto. apply (fwd_conn _ _ _ _ _ _ _ H0); auto. rewrite moved_conns. pj. apply new_lost; auto.
    pose proof (wf_dial E s W) as X. rewrite H in X. exact X.
  - apply (lost_same _ _ _ k); auto. now rewrite (sent_conn _ _ _ _ _ a H0).
  - destruct (baddr_eqb a0 a) eqn:X.
    + apply baddr_eqb_spec in X. subst a0. congruence.
    + apply (lost_same _ _ _ k); auto. pj. now apply put_lost with k0.
  - destruct (baddr_eqb a0 a) eqn:X.
    + apply baddr_eqb_spec in X. subst a0. assert (k0 = k) by congruence. subst k0.
      exists k, (mk_conn (k_e2n k) q (k_res k) (k_alive k) (k_errored k)). rewrite stop_conns. pj. rewrite get_set_same, baddr_eqb_refl. split; auto. split; auto. split; auto. left. apply stop_phase.
    + apply (lost_same _ _ _ k); auto. rewrite stop_conns. pj. rewrite get_set, X. exact K.
  - destruct (baddr_eqb a0 a) eqn:X.
    + apply baddr_eqb_spec in X. subst a0. assert (k0 = k) by congruence. subst k0.
      exists k, (mk_conn (k_e2n k) q (k_res k) (k_alive k) (k_errored k)). rewrite (sent_conn _ _ _ _ _ a H4). pj. rewrite get_set_same, baddr_eqb_refl. split; auto. split; auto. split; auto. right. eexists. eassumption.
    + apply (lost_same _ _ _ k); auto. rewrite (sent_conn _ _ _ _ _ a H4). pj. rewrite get_set, X. exact K.
  - exists k, k. rewrite stop_conns, stop_phase. split; auto. split; auto. split; auto. destruct (reads a (EvConn a0)); auto.
  - apply (lost_same _ _ _ k); auto. pj. now apply put_lost with k0.
  - apply (lost_same _ _ _ k); auto. pj. apply put_lost with (mk_conn q (k_n2e k0) (fst (put_item x (k_res k0))) true (k_errored k0)); auto; [apply get_set_same|now apply put_lost with k0].
  - apply (lost_same _ _ _ k); auto. pj. now apply put_lost with k0.
  - apply (lost_same _ _ _ k); auto. pj. now apply put_lost with k0.
  - apply (lost_same _ _ _ k); auto. pj. now apply put_lost with k0.
  - apply (lost_same _ _ _ k); auto. pj. now apply put_lost with k0.
  - apply (lost_same _ _ _ k); auto. pj. now apply put_lost with k0.
  - apply (lost_same _ _ _ k); auto. pj. now apply put_lost with k0.
Qed.
Lemma lost_bound E s h2 s2 a k : inv E s -> run E s h2 = Some s2 -> get_conn a (s_conns s) = Some k -> k_alive k = false ->
  s_phase s2 <> PStop -> exists k2, get_conn a (s_conns s2) = Some k2 /\ k_alive k2 = false /\ (count (reads a) h2 + length (k_n2e k2) <= length (k_n2e k))%nat.
Proof.
  revert s k. induction h2 as [|e h2 IH]; intros s k I H K Hk Hp; cbn [run] in H.
  { injection H as ->. exists k. auto. }
  destruct (step E s e) as [s1|] eqn:S; [|discriminate]. pose proof (step_trans _ _ _ _ (v_wf E s I) S) as T.
  destruct (trans_lost E s e s1 a k (v_wf E s I) T K Hk) as (k0 & k1 & A & B & C & D). assert (k0 = k) by congruence. subst k0.
  pose proof (inv_trans E s e s1 I T) as I1.
  assert (Hp1 : s_phase s1 <> PStop) by (intros X; apply Hp; exact (run_stop E s1 h2 s2 I1 H X)).
  destruct (IH s1 k1 I1 H B C Hp) as (k2 & X & Y & Z). exists k2. split; auto. split; auto.
  unfold count in *. cbn [filter]. destruct (reads a e).
  - destruct D as [D|[x D]]; [contradiction|]. rewrite D. cbn [length]. lia.
  - rewrite <- D. exact Z.
Qed.

(** * A client that has issued a request exists until it is dropped *)
Lemma trans_client E s e s' c : hinv s -> trans E s e s' -> ch_client (s_ch s c) = true -> ch_use (s_ch s c) = true -> e <> EvDropClient c ->
  ch_client (s_ch s' c) = true /\ ch_use (s_ch s' c) = true.
Proof.
  intros Hh T Hc Hu Hne. pose proof (h_live s Hh c Hc) as Hlt.
  assert (St : forall s0, s_ch s0 c = s_ch s c -> ch_client (s_ch (stop s0) c) = true /\ ch_use (s_ch (stop s0) c) = true).
  { intros s0 X. destruct (stop_ch s0 c) as (_ & _ & A & B & _). rewrite A, B, X. auto. }
  assert (Fw : forall s0 id n o, ch_client (s_ch s0 c) = true -> ch_use (s_ch s0 c) = true -> fwd s0 id n o s' -> ch_client (s_ch s' c) = true /\ ch_use (s_ch s' c) = true).
  { intros s0 id n o X Y F. destruct (fwd_ch s0 id n o s' c F) as (_ & -> & ->). auto. }
  assert (Se : forall s0 a ser i, s_ch s0 c = s_ch s c -> sent s0 a ser i s' -> ch_client (s_ch s' c) = true /\ ch_use (s_ch s' c) = true).
  { intros s0 a ser i X F. destruct F; [pj; rewrite X; auto|]. unfold delivered. pj. pose proof (meta_push i (map rc_h (filter (addressed a i) (s_clients s0))) (s_ch s0) c) as M.
    unfold meta in M. injection M as _ M1 _ M3. rewrite M1, M3, X. auto. }
  assert (Tk : forall h q n res dr, ch_client (s_ch (taken s h q n res dr) c) = true /\ ch_use (s_ch (taken s h q n res dr) c) = true).
  { intros. rewrite taken_ch. unfold set_ch. destruct (Nat.eqb_spec c h) as [->|]; cbn; auto. }
  assert (Wt : forall h, is_in h (s_waiting s) = true -> c <> h).
  { intros h X ->. apply is_in_spec in X. apply (h_wait s Hh) in X as [_ X]. congruence. }
  destruct T; try (split; assumption); try (apply St; reflexivity); try (apply (Se _ _ _ _ eq_refl H0)); try (apply (Se _ _ _ _ eq_refl H4)).
  - pj. unfold set_ch. destruct (Nat.eqb_spec c (s_nh s)); [lia|auto].
  - pj. unfold set_ch. destruct (Nat.eqb_spec c h); [exfalso; eapply Wt; eauto|auto].
  - pj. unfold set_ch. destruct (Nat.eqb_spec c h); [exfalso; eapply Wt; eauto|auto].
  - pj. unfold set_ch. destruct (Nat.eqb_spec c h); [exfalso; eapply Wt; eauto|auto].
  - pj. rewrite ends_ch_at. destruct (is_in c _); auto.
  - pj. unfold set_ch. destruct (Nat.eqb_spec c h) as [->|]; auto.
  - pj. unfold set_ch. destruct (Nat.eqb_spec c h) as [->|]; auto.
  - pj. unfold set_ch. destruct (Nat.eqb_spec c h) as [->|]; [congruence|auto].
  - destruct (Tk h q n res dropped). eapply Fw; eauto.
  - apply Tk.
  - apply Tk.
  - destruct (Tk h q n res dropped). eapply Fw; [| |eassumption]; now rewrite moved_ch.
  - eapply Fw; [| |eassumption]; now rewrite moved_ch.
  - eapply Fw; [| |eassumption]; now rewrite moved_ch.
  - eapply Se; [|eassumption]; reflexivity.
  - eapply Se; [|eassumption]; reflexivity.
Qed.
Lemma trans_issue E s e s' : trans E s e s' -> exists l, s_log s' = s_log s ++ l /\
  forall c n o, In (OIssue c n o) l -> e = EvIssue c o /\ ch_client (s_ch s c) = true /\ ch_use (s_ch s c) = true.
Proof.
  intros T. cases T; pj; rewrite ?moved_log; pj; rewrite <- ?app_assoc;
    try (exists []; rewrite app_nil_r; split; [reflexivity|cbn; tauto]);
    (eexists; split; [reflexivity|]); intros ? ? ? Hin; cbn in Hin; rewrite ?in_app_iff in Hin;
    repeat (match goal with
            | H : _ \/ _ |- _ => destruct H
            | H : In _ (ends_log _ _) |- _ => apply ends_log_cancel in H as [? ?]
            | H : In _ (cancel_all _) |- _ => apply cancel_all_cancel in H as [? ?]
            | H : In _ (_ :: _) |- _ => destruct H
            | H : In _ (_ ++ _) |- _ => apply in_app_iff in H
            | H : In _ [] |- _ => destruct H
            | H : In _ (if ?b then _ else _) |- _ => destruct b
            | H : False |- _ => destruct H
            end; try discriminate; auto).
  injection H3 as <- _ <-. auto.
Qed.
(** A client that has issued a request exists until it is dropped. *)
Lemma reach_issuer E h s : reach E h s -> forall c n o, In (OIssue c n o) (s_log s) -> ~ In (EvDropClient c) h ->
  ch_client (s_ch s c) = true /\ ch_use (s_ch s c) = true.
Proof.
  intros H.
  assert (G : wf E s /\ hinv s /\ forall c n o, In (OIssue c n o) (s_log s) -> ~ In (EvDropClient c) h -> ch_client (s_ch s c) = true /\ ch_use (s_ch s c) = true).
  { revert h s H. apply (run_ind E (fun h s => hinv s /\ forall c n o, In (OIssue c n o) (s_log s) -> ~ In (EvDropClient c) h -> ch_client (s_ch s c) = true /\ ch_use (s_ch s c) = true)).
    - apply wf_init.
    - split; [exact (reach_hinv E [] sys_init eq_refl)|]. intros c n o [].
    - intros h s e s' _ W [Hh IH] _ T W'. split; [exact (hinv_trans E s e s' W Hh T)|].
      intros c n o Hi Hd. rewrite in_app_iff in Hd.
      destruct (trans_issue E s e s' T) as (l & El & Hl). rewrite El in Hi. apply in_app_iff in Hi as [Hi|Hi].
      + destruct (IH c n o Hi) as [A B]; [tauto|]. apply (trans_client E s e s' c Hh T A B). intros ->. apply Hd. right. now left.
      + destruct (Hl c n o Hi) as (-> & A & B). apply (trans_client E s _ s' c Hh T A B). discriminate. }
  exact (proj2 (proj2 G)).
Qed.
(** Nothing is registered after the end. *)
Lemma trans_oreg E s e s' : trans E s e s' -> exists l, s_log s' = s_log s ++ l /\
  ((forall c id, ~ In (OReg c id) l) \/ (s_phase s = PRun /\ e = EvReg /\ exists c id l', l = OReg c id :: l' /\ forall c id, ~ In (OReg c id) l')).
Proof.
  intros T. cases T; pj; rewrite ?moved_log; pj; rewrite <- ?app_assoc;
    try (exists []; rewrite app_nil_r; split; [reflexivity|left; cbn; tauto]);
    (eexists; split; [reflexivity|]);
    try (right; split; [assumption|]; split; [reflexivity|]; do 3 eexists; split; [reflexivity|]);
    try left; intros ? ? Hin; cbn in Hin; rewrite ?in_app_iff in Hin;
    repeat (match goal with
            | H : _ \/ _ |- _ => destruct H
            | H : In _ (ends_log _ _) |- _ => apply ends_log_cancel in H as [? ?]
            | H : In _ (cancel_all _) |- _ => apply cancel_all_cancel in H as [? ?]
            | H : In _ (_ :: _) |- _ => destruct H
            | H : In _ (_ ++ _) |- _ => apply in_app_iff in H
            | H : In _ [] |- _ => destruct H
            | H : In _ (if ?b then _ else _) |- _ => destruct b
            | H : False |- _ => destruct H
            end; try discriminate; auto).
Qed.
Definition early (l1 : list obs) (x : obs) (l2 : list obs) : Prop := match x with OReg _ _ => ~ In OStop l1 | _ => True end.
Lemma reach_early E h s : reach E h s -> every early (s_log s).
Proof.
  intros H. assert (G : inv E s /\ every early (s_log s)); [|tauto].
  revert h s H. apply reach_inv.
  - split; [apply inv_init|]. intros l1 x l2 X. destruct l1; discriminate.
  - intros s e s' W [I IH] T. split; [exact (inv_trans E s e s' I T)|].
    destruct (trans_oreg E s e s' T) as (l & -> & Hl). apply every_app; auto; [intros l1 x l2 l3 X; destruct x; exact X|].
    destruct Hl as [Hl|(Hp & _ & c & id & l' & -> & Hl)].
    + apply chunk_all. intros l1 x l2 Hx. destruct x; cbn; auto. exfalso. eapply Hl; eauto.
    + cbn. split; [|apply chunk_all; intros l1 x l2 Hx; destruct x; cbn; auto; exfalso; eapply Hl; eauto].
      intros X. apply (i_stop s (v_s E s I)) in X. congruence.
Qed.
