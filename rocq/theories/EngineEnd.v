(** Invariants for C73. *)
From Verif Require Import Bytes Errors Wire Proto Codec Address Message Client Engine SpecEngine SpecEngine2 EngineFacts EngineInv EngineReq EngineEv EngineConn EngineLog EngineLife EngineHang SpecEnd.
Open Scope N_scope.

(** * The connects a connection holds are the one the engine waits for *)
Definition csrc (q : list citem) : list nat :=
  flat_map (fun x => if is_connect (ci_out x) then match ci_src x with Some n => [n] | None => [] end else []) q.
Definition held (k : conn) : list nat := map snd (k_res k) ++ csrc (k_e2n k).
Record linv (s : sys) : Prop := mk_linv {
  l_held : s_phase s <> PStop -> forall a k n, get_conn a (s_conns s) = Some k -> In n (held k) -> s_phase s = PConn a n Waiting;
  l_lost : forall a n, s_phase s = PConn a n Lost -> exists k, get_conn a (s_conns s) = Some k /\ k_alive k = false }.

Definition fewer (l l' : list (baddr * conn)) : Prop := forall a k' n, get_conn a l' = Some k' -> In n (held k') -> exists k, get_conn a l = Some k /\ In n (held k).
Definition still (l l' : list (baddr * conn)) : Prop := forall a k, get_conn a l = Some k -> k_alive k = false -> exists k', get_conn a l' = Some k' /\ k_alive k' = false.
Lemma fewer_refl l : fewer l l. Proof. intros a k n H X. eauto. Qed.
Lemma still_refl l : still l l. Proof. intros a k H X. eauto. Qed.
Lemma fewer_put l a k k0 : get_conn a l = Some k0 -> (forall n, In n (held k) -> In n (held k0)) -> fewer l (set_conn a k l).
Proof.
  intros H X b k' n Hb Hn. rewrite get_set in Hb. destruct (baddr_eqb a b) eqn:Y; [|eauto]. apply baddr_eqb_spec in Y as <-. injection Hb as <-. eauto.
Qed.
Lemma still_put l a k k0 : get_conn a l = Some k0 -> (k_alive k0 = false -> k_alive k = false) -> still l (set_conn a k l).
Proof.
  intros H X b k' Hb Hn. rewrite get_set. destruct (baddr_eqb a b) eqn:Y; [|eauto]. apply baddr_eqb_spec in Y as <-. rewrite H in Hb. injection Hb as <-. eauto.
Qed.
Lemma fewer_new l a : fewer l (set_conn a conn_init l).
Proof. intros b k' n Hb Hn. rewrite get_set in Hb. destruct (baddr_eqb a b); [injection Hb as <-; destruct Hn|eauto]. Qed.
Lemma still_new l a : get_conn a l = None -> still l (set_conn a conn_init l).
Proof. intros X b k' Hb Hn. rewrite get_set. destruct (baddr_eqb a b) eqn:Y; [|eauto]. apply baddr_eqb_spec in Y as <-. congruence. Qed.

(** Nothing new is held; the phase is the same, or the engine was not waiting. *)
Lemma linv_gen s s' : linv s -> fewer (s_conns s) (s_conns s') -> still (s_conns s) (s_conns s') ->
  (s_phase s' = s_phase s \/ s_phase s' = PStop \/ (s_phase s <> PStop /\ (forall a n, s_phase s <> PConn a n Waiting) /\ forall a n, s_phase s' <> PConn a n Lost)) -> linv s'.
Proof.
  intros [H1 H2] F S P. constructor.
  - intros NP a k n Hk Hn. destruct (F a k n Hk Hn) as (k0 & Hk0 & Hn0). destruct P as [P|[P|(P0 & P1 & _)]]; [|contradiction|].
    + rewrite P in *. eauto.
    + exfalso. exact (P1 _ _ (H1 P0 _ _ _ Hk0 Hn0)).
  - intros a n Hp. destruct P as [P|[P|(_ & _ & P)]]; [|congruence|exfalso; eapply P; eauto].
    rewrite P in Hp. destruct (H2 _ _ Hp) as (k & Hk & Ha). eapply S; eauto.
Qed.
Lemma csrc_app p q : csrc (p ++ q) = csrc p ++ csrc q.
Proof. apply flat_map_app. Qed.
Lemma linv_stop s s0 : linv s -> s_conns s0 = s_conns s -> linv (stop s0).
Proof. intros H E. apply (linv_gen s); auto; rewrite ?stop_conns, ?E; [apply fewer_refl|apply still_refl|]. right. left. apply stop_phase. Qed.
(** A request is forwarded: nothing was held. *)
Lemma linv_fwd s id n o s' : linv s -> s_phase s <> PStop -> (forall a n, s_phase s <> PConn a n Waiting) -> fwd s id n o s' -> linv s'.
Proof.
  intros H NP NW F. destruct F as [c k Hc Hk Ha|c k Hc Hk Ha]; [|now apply linv_stop with s].
  destruct (is_connect o) eqn:IC.
  - constructor; pj; [|discriminate]. intros _ b k' m Hb Hm. rewrite get_set in Hb. destruct (baddr_eqb (rc_addr c) b) eqn:Y.
    + apply baddr_eqb_spec in Y as <-. injection Hb as <-. unfold held in Hm. cbn [k_res k_e2n] in Hm. rewrite csrc_app, !in_app_iff in Hm.
      assert (X : forall x, In x (held k) -> False) by (intros x X; exact (NW _ _ (l_held s H NP _ _ _ Hk X))).
      unfold held in X. destruct Hm as [Hm|[Hm|Hm]]; [exfalso; apply (X m), in_app_iff; auto|exfalso; apply (X m), in_app_iff; auto|].
      cbn in Hm. rewrite IC in Hm. destruct Hm as [->|[]]. reflexivity.
    + exfalso. exact (NW _ _ (l_held s H NP _ _ _ Hb Hm)).
  - apply (linv_gen s); auto; pj.
    + apply (fewer_put _ _ _ k Hk). unfold held. cbn [k_res k_e2n]. intros m. rewrite csrc_app. cbn. rewrite IC, app_nil_r. auto.
    + apply (still_put _ _ _ k Hk). congruence.
    + right. right. repeat split; auto. discriminate.
Qed.
Lemma linv_sent s a ser i s' : linv s -> sent s a ser i s' -> linv s'.
Proof. intros H S. destruct S; (apply (linv_gen s); [exact H|apply fewer_refl|apply still_refl|now left]). Qed.
Lemma linv_phase s s' : linv s -> s_conns s' = s_conns s -> s_phase s <> PStop -> (forall a n, s_phase s <> PConn a n Waiting) -> (forall a n, s_phase s' <> PConn a n Lost) -> linv s'.
Proof. intros H E N1 N2 N3. apply (linv_gen s); [exact H|rewrite E; apply fewer_refl|rewrite E; apply still_refl|auto]. Qed.
Lemma linv_same s s' : linv s -> s_conns s' = s_conns s -> s_phase s' = s_phase s -> linv s'.
Proof. intros H E N. apply (linv_gen s); [exact H|rewrite E; apply fewer_refl|rewrite E; apply still_refl|auto]. Qed.
Lemma csrc_qsrc q n : In n (csrc q) -> In n (qsrc q).
Proof.
  unfold csrc, qsrc. rewrite !in_flat_map. intros (x & Hx & H). exists x. split; auto. now destruct (is_connect (ci_out x)).
Qed.
(** The connection [a] ends. *)
Lemma linv_dead s s0 a k : linv s -> winv s -> get_conn a (s_conns s) = Some k -> s_conns s0 = s_conns s -> s_phase s0 = s_phase s -> linv (dead s0 a k).
Proof.
  intros H W Hk E P. pose proof (w_nd s W a k Hk) as N. unfold dead. constructor; pj; rewrite E, P.
  - intros NP b k' m Hb Hm. rewrite get_set in Hb.
    assert (NP' : s_phase s <> PStop) by (intros X; rewrite X in NP; destruct (wake_ph_cases (map snd (k_res k)) Lost PStop) as [Z|(? & ? & Z & _)]; congruence).
    assert (PW : s_phase s = PConn b m Waiting).
    { destruct (baddr_eqb a b) eqn:Y; [|eapply (l_held s H); eauto]. apply baddr_eqb_spec in Y as <-. injection Hb as <-.
      apply (l_held s H NP' a k m Hk). unfold held in *. apply in_app_iff. now right. }
    destruct (wake_ph_cases (map snd (k_res k)) Lost (s_phase s)) as [Z|(b' & m' & Z & Hin & _)]; [congruence|].
    rewrite PW in Z. injection Z as <- <-.
    assert (PA : s_phase s = PConn a m Waiting) by (apply (l_held s H NP' a k m Hk); unfold held; apply in_app_iff; now left).
    exfalso. assert (b = a) as -> by congruence. rewrite baddr_eqb_refl in Hb. injection Hb as <-. unfold held in Hm. cbn in Hm.
    apply csrc_qsrc in Hm. exact (nodup_two _ _ m N Hm Hin).
  - intros b m Hp. destruct (wake_ph_cases (map snd (k_res k)) Lost (s_phase s)) as [Z|(b' & m' & Z & Hin & Z')].
    + rewrite Z in Hp. destruct (l_lost s H _ _ Hp) as (k0 & Hk0 & Ha0). rewrite get_set. destruct (baddr_eqb a b); eauto.
    + rewrite Z' in Hp. injection Hp as <- <-.
      assert (PA : s_phase s = PConn a m' Waiting) by (apply (l_held s H ltac:(congruence) a k m' Hk); unfold held; apply in_app_iff; now left).
      assert (b' = a) as -> by congruence. rewrite get_set_same. eauto.
Qed.
(** A connection takes a command: what it drops is not waited for. *)
Lemma linv_popped E s a k x q c : cinv E s -> winv s -> linv s -> get_conn a (s_conns s) = Some k -> k_alive k = true -> k_e2n k = x :: q ->
  linv (say (popped s a k x q) c).
Proof.
  intros C W H Hk Ha Hx. unfold popped. pose proof (w_nd s W a k Hk) as N.
  destruct (put_item_cases s a k x q E C W Hk Hx) as [[P X]|(n & X & P)]; rewrite P; cbn [fst snd wake_ph].
  - apply (linv_gen s); auto; pj.
    + apply (fewer_put _ _ _ k Hk). unfold held. cbn [k_res k_e2n]. intros m. rewrite Hx, !in_app_iff. cbn [csrc flat_map]. rewrite in_app_iff. tauto.
    + apply (still_put _ _ _ k Hk). congruence.
  - assert (IC : s_phase s <> PStop -> s_phase s = PConn a n Waiting).
    { intros NP. apply (l_held s H NP a k n Hk). unfold held. apply in_app_iff. right. rewrite Hx. cbn [csrc flat_map]. apply in_app_iff. left.
      cbn in X. destruct (ci_src x) as [m|] eqn:Hs; [|discriminate]. injection X as ->.
      destruct (is_connect (ci_out x)) eqn:I; [now left|]. exfalso. unfold put_item in P.
      destruct (c_item E s C a k x Hk) as [H1 _]; [rewrite Hx; now left|]. rewrite H1, I in P. injection P as P _.
      apply (nodup_two _ _ n N); [rewrite Hx; cbn; rewrite Hs; now left|]. rewrite P. now left. }
    assert (SAME : wake_ph (map snd (k_res k)) Lost (s_phase s) = s_phase s).
    { destruct (wake_ph_cases (map snd (k_res k)) Lost (s_phase s)) as [Z|(b & m & Z & Hin & Z')]; auto. exfalso.
      rewrite IC in Z by congruence. injection Z as <- <-. apply (nodup_two _ _ n N); auto. rewrite Hx. change (x :: q) with ([x] ++ q). rewrite qsrc_app, X. now left. }
    rewrite SAME. constructor; pj.
    + intros NP b k' m Hb Hm. rewrite get_set in Hb. destruct (baddr_eqb a b) eqn:Y; [|eapply (l_held s H); eauto].
      apply baddr_eqb_spec in Y as <-. injection Hb as <-. unfold held in Hm. cbn [k_res k_e2n map snd app] in Hm. destruct Hm as [<-|Hm]; [auto|].
      apply (l_held s H NP a k m Hk). unfold held. apply in_app_iff. right. rewrite Hx. cbn [csrc flat_map]. apply in_app_iff. now right.
    + intros b m Hp. rewrite get_set. destruct (baddr_eqb a b) eqn:Y; [|exact (l_lost s H _ _ Hp)].
      apply baddr_eqb_spec in Y as <-. rewrite IC in Hp by congruence. discriminate.
Qed.
Lemma linv_trans E s e s' : inv E s -> winv s -> linv s -> trans E s e s' -> linv s'.
Proof.
  intros V W H T. pose proof (v_c E s V) as C. pose proof (v_wf E s V) as Wf. destruct T;
    try (apply (linv_same s); [exact H|reflexivity|reflexivity]);
    try (apply (linv_stop s); [exact H|reflexivity]);
    try (apply (linv_phase s); [exact H|reflexivity|congruence|congruence|pj; discriminate]).
  - (* start *) apply (linv_gen s); auto; pj; [apply fewer_new|apply still_new; destruct (wf_start E s Wf H0) as [_ ->]; reflexivity|].
    right. right. repeat split; congruence.
  - (* take *) apply (linv_fwd _ _ _ _ _) in H6; auto; pj; try congruence. apply (linv_same s); auto.
  - apply (linv_fwd _ _ _ _ _) in H7; auto; rewrite ?moved_phase; pj; try congruence. apply (linv_same s); rewrite ?moved_conns, ?moved_phase; auto.
  - apply (linv_fwd _ _ _ _ _) in H2; auto; rewrite ?moved_phase; pj; try congruence. apply (linv_same s); rewrite ?moved_conns, ?moved_phase; auto.
  - pose proof (wf_dial E s Wf) as D. rewrite H0 in D.
    apply (linv_fwd _ _ _ _ _) in H1; auto; rewrite ?moved_phase; pj; try congruence.
    apply (linv_gen s); auto; rewrite ?moved_conns, ?moved_phase; pj; [apply fewer_new|now apply still_new|auto].
  - (* answered *) apply linv_sent in H1; auto. apply (linv_phase s); auto; try congruence. pj. discriminate.
  - (* pong *) apply (linv_gen s); auto; pj; auto.
    + apply (fewer_put _ _ _ k); auto. unfold held. cbn [k_res k_e2n]. intros m. rewrite csrc_app. cbn. now rewrite app_nil_r.
    + apply (still_put _ _ _ k); auto. congruence.
  - (* ping, dead *) apply (linv_stop (put_conn s a (mk_conn (k_e2n k) q (k_res k) (k_alive k) (k_errored k)))); [|reflexivity].
    apply (linv_gen s); auto; pj; auto; [apply (fewer_put _ _ _ k)|apply (still_put _ _ _ k)]; auto.
  - (* handle *) apply linv_sent in H5; auto. apply (linv_gen s); auto; pj; auto; [apply (fewer_put _ _ _ k)|apply (still_put _ _ _ k)]; auto.
  - (* write *) now apply (linv_popped E).
  - (* write, panic *)
    pose proof (linv_popped E s a k x q [] C W H H0 H1 H2) as L. pose proof (winv_popped E s s a k x q [] C W H0 H1 H2 eq_refl) as Wp.
    apply (linv_dead (say (popped s a k x q) []) _ _ _ L Wp); try reflexivity. pj. apply get_set_same.
  - now apply (linv_dead s).
  - now apply (linv_dead s).
  - apply (linv_gen s); auto; pj; auto; [apply (fewer_put _ _ _ k)|apply (still_put _ _ _ k)]; auto. congruence.
  - (* resolve *)
    destruct (resolve_one k _ n res (w_one s W _ _ H0) H4) as [R ->]. pose proof (w_nd s W _ _ H0) as N. rewrite R in N. constructor; pj.
    + intros NP b k' m Hb Hm. rewrite get_set in Hb.
      assert (NP' : s_phase s <> PStop) by (intros X; rewrite X in NP; destruct (wake_ph_cases [n] (Answered (s_narr s) i) PStop) as [Z|(? & ? & Z & _)]; congruence).
      assert (PN : s_phase s = PConn a n Waiting) by (apply (l_held s H NP' a k n H0); unfold held; rewrite R; now left).
      exfalso. destruct (baddr_eqb a b) eqn:Y.
      * apply baddr_eqb_spec in Y as <-. injection Hb as <-. unfold held in Hm. cbn [k_res k_e2n map app] in Hm.
        assert (PM : s_phase s = PConn a m Waiting) by (apply (l_held s H NP' a k m H0); unfold held; apply in_app_iff; now right).
        assert (m = n) as -> by congruence. apply csrc_qsrc in Hm. apply (nodup_two _ _ n N Hm). now left.
      * pose proof (l_held s H NP' _ _ _ Hb Hm) as PM. rewrite PN in PM. injection PM as <- _. now rewrite baddr_eqb_refl in Y.
    + intros b m Hp. destruct (wake_ph_cases [n] (Answered (s_narr s) i) (s_phase s)) as [Z|(? & ? & Z & _ & Z')]; [|congruence].
      rewrite Z in Hp. destruct (l_lost s H _ _ Hp) as (k0 & Hk0 & Ha0). rewrite get_set. destruct (baddr_eqb a b) eqn:Y; [|eauto].
      apply baddr_eqb_spec in Y as <-. congruence.
  - apply (linv_gen s); auto; pj; auto; [apply (fewer_put _ _ _ k)|apply (still_put _ _ _ k)]; auto. congruence.
  - now apply (linv_dead s).
Qed.
Lemma reach_linv E h s : reach E h s -> linv s.
Proof.
  intros R. refine (proj2 (proj2 (proj2 (run_ind E (fun _ s => inv E s /\ winv s /\ linv s) sys_init (wf_init E) _ _ h s R)))).
  - split; [apply inv_init|]. split; [apply winv_init|]. constructor; cbn; [|discriminate]. intros _ a k n X. discriminate.
  - intros g t e t' _ _ (V1 & W1 & L1) _ T _. split; [exact (inv_trans E t e t' V1 T)|]. split; [exact (winv_trans E t e t' V1 W1 T)|exact (linv_trans E t e t' V1 W1 L1 T)].
Qed.
