(** Events are handled at most once; connects are handled one at a time. *)
From Verif Require Import Bytes Errors Wire Proto Codec Address Message Client Engine SpecEngine EngineFacts EngineInv EngineReq.
Open Scope N_scope.

(** * Events *)
Record ainv (s : sys) : Prop := mk_ainv {
  a_lt : forall a ser i, In (OArrive a ser i) (s_log s) -> (ser < s_narr s)%nat;
  a_uniq : forall a ser i a' i', In (OArrive a ser i) (s_log s) -> In (OArrive a' ser i') (s_log s) -> a = a' /\ i = i';
  a_q : forall a k ser i, get_conn a (s_conns s) = Some k -> In (ser, i) (k_n2e k) ->
      In (OArrive a ser i) (s_log s) /\ ~ In ser (handled (s_log s));
  a_qnd : forall a k, get_conn a (s_conns s) = Some k -> NoDup (map fst (k_n2e k));
  a_ph : forall a n ser i, s_phase s = PConn a n (Answered ser i) ->
      In (OArrive a ser i) (s_log s) /\ ~ In ser (handled (s_log s)) /\
      (forall k j, get_conn a (s_conns s) = Some k -> ~ In (ser, j) (k_n2e k));
  a_h : forall ser, In ser (handled (s_log s)) -> exists a i, In (OArrive a ser i) (s_log s);
  a_hnd : NoDup (handled (s_log s)) }.

Definition silent (x : obs) : bool := match x with OArrive _ _ _ | OHandle _ _ _ => false | _ => true end.
Lemma silent_handled c : forallb silent c = true -> handled c = [].
Proof. induction c as [|x c IH]; cbn; auto. destruct x; cbn; auto; discriminate. Qed.
Lemma silent_arrive c a ser i : forallb silent c = true -> ~ In (OArrive a ser i) c.
Proof. intros H Hin. rewrite forallb_forall in H. apply H in Hin. discriminate. Qed.
Lemma silent_cancel ns : forallb silent (cancel_all ns) = true.
Proof. induction ns; auto. Qed.
Lemma silent_ends hs f : forallb silent (ends_log hs f) = true.
Proof. apply forallb_forall. intros x Hx. apply ends_log_cancel in Hx as [n ->]. reflexivity. Qed.
(** Nothing arrives and nothing is handled. The queues may lose nothing but may
    gain a connection without events. *)
Lemma ainv_silent s s' c :
  ainv s -> s_log s' = s_log s ++ c -> forallb silent c = true -> s_narr s' = s_narr s ->
  (forall a k, get_conn a (s_conns s') = Some k -> k_n2e k = [] \/ exists k0, get_conn a (s_conns s) = Some k0 /\ k_n2e k0 = k_n2e k) ->
  (forall a n ser i, s_phase s' = PConn a n (Answered ser i) -> s_phase s = PConn a n (Answered ser i)) -> ainv s'.
Proof.
  intros [A1 A2 A3 A4 A5 A6 A7] El Hc En Eq Ep.
  assert (Hi : forall a ser i, In (OArrive a ser i) (s_log s') <-> In (OArrive a ser i) (s_log s)).
  { intros. rewrite El, in_app_iff. pose proof (silent_arrive c a ser i Hc). tauto. }
  assert (Hh : handled (s_log s') = handled (s_log s)) by (rewrite El, handled_app, (silent_handled c Hc); apply app_nil_r).
  constructor; rewrite ?Hh, ?En; auto.
  - intros a ser i H. apply Hi in H. eauto.
  - intros a ser i a' i' Ha Hb. apply Hi in Ha, Hb. eauto.
  - intros a k ser i Hk Hin. rewrite Hi. destruct (Eq a k Hk) as [E|(k0 & Hk0 & E)]; [rewrite E in Hin; destruct Hin|].
    rewrite <- E in Hin. eauto.
  - intros a k Hk. destruct (Eq a k Hk) as [E|(k0 & Hk0 & E)]; rewrite ?E; [constructor|]. rewrite <- E. eauto.
  - intros a n ser i Hp. apply Ep in Hp. destruct (A5 a n ser i Hp) as (H1 & H2 & H3). rewrite Hi. split; auto. split; auto.
    intros k j Hk Hin. destruct (Eq a k Hk) as [E|(k0 & Hk0 & E)]; [rewrite E in Hin; destruct Hin|]. rewrite <- E in Hin. eapply H3; eauto.
  - intros ser H. destruct (A6 ser H) as (a & i & X). exists a, i. now apply Hi.
Qed.
Lemma ainv_stop s : ainv s -> ainv (stop s).
Proof.
  intros A. rewrite stop_eq.
  apply (ainv_silent s _ ((OStop :: cancel_all (map snd (s_res s))) ++ ends_log (ended s) (s_ch s)) A); try reflexivity.
  - rewrite forallb_app. cbn. now rewrite silent_cancel, silent_ends.
  - pj. intros a k Hk. right. exists k. auto.
  - pj. discriminate.
Qed.
Lemma put_same a k' k l b x :
  get_conn a l = Some k -> k_n2e k' = k_n2e k -> get_conn b (set_conn a k' l) = Some x ->
  k_n2e x = [] \/ exists k0, get_conn b l = Some k0 /\ k_n2e k0 = k_n2e x.
Proof.
  intros Hk E H. rewrite get_set in H. destruct (baddr_eqb a b) eqn:X; [|eauto].
  apply baddr_eqb_spec in X. subst b. injection H as <-. right. exists k. auto.
Qed.
Lemma ainv_fwd s id n o s' : ainv s -> fwd s id n o s' -> ainv s'.
Proof.
  intros A F. destruct F; [|now apply ainv_stop].
  apply (ainv_silent s _ [OForward n (rc_addr c) o] A); auto; pj.
  - intros b x Hx. refine (put_same _ _ k _ _ _ H0 _ Hx). reflexivity.
  - intros a m ser i H2. destruct (is_connect o); discriminate.
Qed.
Lemma ainv_moved E s id c : ainv s -> ainv (moved E s id c).
Proof.
  intros A. unfold moved. destruct (baddr_eqb _ _); auto. apply (ainv_silent s _ [] A); auto; pj; eauto.
  symmetry. apply app_nil_r.
Qed.
Lemma ainv_sent s a ser i s' : ainv s -> sent s a ser i s' -> ainv s'.
Proof.
  intros A S. destruct S.
  - apply (ainv_silent s _ [OAnswer n ser i] A); auto; pj; eauto.
  - apply (ainv_silent s _ [] A); auto; pj; eauto. symmetry. apply app_nil_r.
Qed.
(** An event is taken. *)
Lemma ainv_handle s s' a ser i :
  ainv s -> s_log s' = s_log s ++ [OHandle a ser i] -> s_narr s' = s_narr s -> In (OArrive a ser i) (s_log s) -> ~ In ser (handled (s_log s)) ->
  (forall b k, get_conn b (s_conns s') = Some k -> exists k0, get_conn b (s_conns s) = Some k0 /\
      (forall x, In x (k_n2e k) -> In x (k_n2e k0)) /\ NoDup (map fst (k_n2e k)) /\ (b = a -> forall j, ~ In (ser, j) (k_n2e k))) ->
  s_phase s' = PRun -> ainv s'.
Proof.
  intros [A1 A2 A3 A4 A5 A6 A7] El En Hin Hnh Eq Ep.
  assert (Hi : forall a ser i, In (OArrive a ser i) (s_log s') <-> In (OArrive a ser i) (s_log s)).
  { intros. rewrite El, in_app_iff. cbn. intuition congruence. }
  assert (Hh : handled (s_log s') = handled (s_log s) ++ [ser]) by (rewrite El, handled_app; reflexivity).
  constructor; rewrite ?Hh, ?En; auto.
  - intros b se j H. apply Hi in H. eauto.
  - intros b se j a' i' Ha Hb. apply Hi in Ha, Hb. eauto.
  - intros b k se j Hk Hq. rewrite Hi. destruct (Eq b k Hk) as (k0 & Hk0 & X1 & X2 & X3).
    destruct (A3 b k0 se j Hk0 (X1 _ Hq)) as [Y1 Y2]. split; auto. rewrite in_app_iff. intros [Z|[Z|[]]]; auto.
    subst se. destruct (A2 _ _ _ _ _ Y1 Hin) as [-> _]. now apply (X3 eq_refl j).
  - intros b k Hk. destruct (Eq b k Hk) as (k0 & Hk0 & X1 & X2 & X3). auto.
  - rewrite Ep. discriminate.
  - intros se H. apply in_app_iff in H as [H|[<-|[]]].
    + destruct (A6 se H) as (b & j & X). exists b, j. now apply Hi.
    + exists a, i. now apply Hi.
  - apply NoDup_snoc; auto.
Qed.
(** An event arrives. *)
Lemma ainv_arrive s s' a i :
  ainv s -> s_log s' = s_log s ++ [OArrive a (s_narr s) i] -> s_narr s' = S (s_narr s) ->
  (forall b k, get_conn b (s_conns s') = Some k -> exists k0, get_conn b (s_conns s) = Some k0 /\
      (k_n2e k = k_n2e k0 \/ (b = a /\ k_n2e k = k_n2e k0 ++ [(s_narr s, i)] /\ s_phase s' = s_phase s))) ->
  (forall b n ser j, s_phase s' = PConn b n (Answered ser j) ->
     s_phase s = PConn b n (Answered ser j) \/
     (ser = s_narr s /\ b = a /\ j = i /\ forall k, get_conn a (s_conns s') = Some k -> exists k0, get_conn a (s_conns s) = Some k0 /\ k_n2e k = k_n2e k0)) -> ainv s'.
Proof.
  intros [A1 A2 A3 A4 A5 A6 A7] El En Eq Ep. set (m := s_narr s) in *.
  assert (Hi : forall b se j, In (OArrive b se j) (s_log s') <-> In (OArrive b se j) (s_log s) \/ (b = a /\ se = m /\ j = i)).
  { intros. rewrite El, in_app_iff. cbn. intuition congruence. }
  assert (Hh : handled (s_log s') = handled (s_log s)) by (rewrite El, handled_app; apply app_nil_r).
  assert (Hf : forall b j, ~ In (OArrive b m j) (s_log s)) by (intros b j H; apply A1 in H; lia).
  assert (Hfh : ~ In m (handled (s_log s))) by (intros H; apply A6 in H as (b & j & H); now apply Hf in H).
  constructor; rewrite ?Hh, ?En; auto.
  - intros b se j H. apply Hi in H as [H|(_ & -> & _)]; [apply A1 in H|]; lia.
  - intros b se j b' j' Ha Hb. apply Hi in Ha, Hb. destruct Ha as [Ha|(-> & -> & ->)], Hb as [Hb|(-> & E & ->)]; eauto.
    + subst. now apply Hf in Ha.
    + now apply Hf in Hb.
  - intros b k se j Hk Hq. rewrite Hi. destruct (Eq b k Hk) as (k0 & Hk0 & [E|(-> & E & _)]); rewrite E in Hq.
    + destruct (A3 b k0 se j Hk0 Hq). auto.
    + apply in_app_iff in Hq as [Hq|[Hq|[]]]; [destruct (A3 a k0 se j Hk0 Hq); auto|]. injection Hq as <- <-. auto.
  - intros b k Hk. destruct (Eq b k Hk) as (k0 & Hk0 & [E|(-> & E & _)]); rewrite E; eauto.
    rewrite map_app. apply NoDup_snoc; eauto. cbn. intros X. apply in_map_iff in X as ([se j] & E2 & X). cbn in E2. subst se.
    destruct (A3 a k0 m j Hk0 X) as [Y _]. now apply Hf in Y.
  - intros b n se j Hp. destruct (Ep b n se j Hp) as [Hp0|(-> & -> & -> & Hc)].
    + destruct (A5 b n se j Hp0) as (X1 & X2 & X3). rewrite Hi. split; auto. split; auto.
      intros k j' Hk Hq. destruct (Eq b k Hk) as (k0 & Hk0 & [E|(-> & E & _)]); rewrite E in Hq; [eapply X3; eauto|].
      apply in_app_iff in Hq as [Hq|[Hq|[]]]; [eapply X3; eauto|]. injection Hq as <- <-. now apply Hf in X1.
    + rewrite Hi. split; [auto|]. split; auto. intros k j' Hk Hq. destruct (Hc k Hk) as (k0 & Hk0 & E). rewrite E in Hq.
      destruct (A3 a k0 m j' Hk0 Hq) as [Y _]. now apply Hf in Y.
  - intros se H. destruct (A6 se H) as (b & j & X). exists b, j. apply Hi. auto.
Qed.

Lemma wake_answered ns w p a n ser i :
  wake_ph ns w p = PConn a n (Answered ser i) -> p = PConn a n (Answered ser i) \/ (p = PConn a n Waiting /\ w = Answered ser i /\ In n ns).
Proof.
  destruct (wake_ph_cases ns w p) as [->|(b & m & -> & Hi & ->)]; auto. intros H. injection H as -> -> ->. auto.
Qed.
Lemma wake_lost ns p a n ser i : wake_ph ns Lost p = PConn a n (Answered ser i) -> p = PConn a n (Answered ser i).
Proof. intros H. apply wake_answered in H as [H|(_ & H & _)]; [auto|discriminate]. Qed.
Ltac asilent s A c := apply (ainv_silent s _ c A); [try reflexivity; try (symmetry; apply app_nil_r)|try reflexivity|reflexivity|try (intros; right; eexists; split; [eassumption|reflexivity])|try (pj; congruence)].
Lemma ainv_trans E s e s' :
  (forall a n w, s_phase s = PConn a n w -> forall b k m key, get_conn b (s_conns s) = Some k -> In (key, m) (k_res k) -> m = n -> b = a) ->
  ainv s -> trans E s e s' -> ainv s'.
Proof.
  intros Hb A T.
  destruct T;
    repeat match goal with
      | H : ainv ?x |- ainv ?x => exact H
      | |- ainv (stop _) => apply ainv_stop
      | F : fwd _ _ _ _ ?x |- ainv ?x => refine (ainv_fwd _ _ _ _ _ _ F)
      | |- ainv (moved _ _ _ _) => apply ainv_moved
      end; try (asilent s A (@nil obs); fail).
  - asilent s A [ORegErr (s_nh s)].
  - asilent s A [OConfirm h].
  - asilent s A [ORegErr h].
  - asilent s A (ends_log (regq_handles s) (s_ch s)). apply silent_ends.
  - asilent s A [OIssue h (s_nreq s) o].
  - asilent s A [ORefuse h o].
  - asilent s A [OGot h i].
  - asilent s A [OGone h].
  - asilent s A (if ch_engine (s_ch s h) then [] else cancel_all (queued_requests (s_ch s h))).
    destruct (ch_engine (s_ch s h)); [reflexivity|apply silent_cancel].
  - asilent s A [ODial (broker_address (e_cfg E)) true]. pj. intros a k. rewrite get_set.
    destruct (baddr_eqb _ a); intros H'; [injection H' as <-; auto|right; eauto].
  - asilent s A [ODial (broker_address (e_cfg E)) false].
  - asilent s A (OTake n :: cancel_all dropped).
    + pj. rewrite <- app_assoc. reflexivity.
    + pj. apply silent_cancel.
  - asilent s A (OTake n :: cancel_all dropped).
    + pj. rewrite <- app_assoc. reflexivity.
    + pj. apply silent_cancel.
  - asilent s A (OTake n :: cancel_all dropped).
    + pj. rewrite <- app_assoc. reflexivity.
    + pj. apply silent_cancel.
  - asilent s A (OTake n :: cancel_all dropped).
    + pj. rewrite <- app_assoc. reflexivity.
    + pj. apply silent_cancel.
  - asilent s A [OAuthed n r].
  - asilent s A [OAuthed n (Ok d)].
  - asilent s A [OAuthed n (Ok d)].
  - asilent s A [ODial (caddr E c) true]. pj. intros a k. rewrite get_set.
    destruct (baddr_eqb _ a); intros H'; [injection H' as <-; auto|right; eauto].
  - asilent s A [ODial (caddr E c) false].
  - refine (ainv_sent _ _ _ _ _ _ H0). destruct (a_ph s A a n ser i H) as (X1 & X2 & X3).
    apply (ainv_handle s _ a ser i A); auto. pj. intros b k Hk. exists k. split; auto. split; auto. split; [eapply a_qnd; eauto|].
    intros -> j. now apply X3.
  - (* pong *)
    assert (Hin : In (OArrive a ser InPing) (s_log s) /\ ~ In ser (handled (s_log s))) by (apply (a_q s A a k); auto; rewrite H2; now left).
    apply (ainv_silent (say (put_conn s a (mk_conn (k_e2n k) q (k_res k) true (k_errored k))) [OHandle a ser InPing]) _ [OPonged a]);
      [|pj; now rewrite <- app_assoc|reflexivity|reflexivity| |pj; congruence].
    + apply (ainv_handle s _ a ser InPing A); try tauto; auto. pj. intros b x. rewrite get_set. destruct (baddr_eqb a b) eqn:X; intros Hx.
      * apply baddr_eqb_spec in X. subst b. injection Hx as <-. exists k. split; auto. cbn. rewrite H2. split; [now right|].
        pose proof (a_qnd s A a k H1) as Hn. rewrite H2 in Hn. cbn in Hn. inversion Hn as [|? ? N1 N2]; subst. split; auto.
        intros _ j Hj. apply N1. apply in_map_iff. exists (ser, j). auto.
      * exists x. split; auto. split; auto. split; [eapply a_qnd; eauto|]. intros ->. rewrite baddr_eqb_refl in X. discriminate.
    + pj. intros b x. rewrite !get_set. destruct (baddr_eqb a b); intros Hx; right; [|eauto].
      injection Hx as <-. eexists; split; [reflexivity|reflexivity].
  - (* ping on a dead connection *)
    assert (Hin : In (OArrive a ser InPing) (s_log s) /\ ~ In ser (handled (s_log s))) by (apply (a_q s A a k); auto; rewrite H2; now left).
    apply (ainv_handle s _ a ser InPing A); try tauto; auto. pj. intros b x. rewrite get_set. destruct (baddr_eqb a b) eqn:X; intros Hx.
    + apply baddr_eqb_spec in X. subst b. injection Hx as <-. exists k. split; auto. cbn. rewrite H2. split; [now right|].
      pose proof (a_qnd s A a k H1) as Hn. rewrite H2 in Hn. cbn in Hn. inversion Hn as [|? ? N1 N2]; subst. split; auto.
      intros _ j Hj. apply N1. apply in_map_iff. exists (ser, j). auto.
    + exists x. split; auto. split; auto. split; [eapply a_qnd; eauto|]. intros ->. rewrite baddr_eqb_refl in X. discriminate.
  - (* another event *)
    refine (ainv_sent _ _ _ _ _ _ H4).
    assert (Hin : In (OArrive a ser i) (s_log s) /\ ~ In ser (handled (s_log s))) by (apply (a_q s A a k); auto; rewrite H2; now left).
    apply (ainv_handle s _ a ser i A); try tauto; auto. pj. intros b x. rewrite get_set. destruct (baddr_eqb a b) eqn:X; intros Hx.
    + apply baddr_eqb_spec in X. subst b. injection Hx as <-. exists k. split; auto. cbn. rewrite H2. split; [now right|].
      pose proof (a_qnd s A a k H1) as Hn. rewrite H2 in Hn. cbn in Hn. inversion Hn as [|? ? N1 N2]; subst. split; auto.
      intros _ j Hj. apply N1. apply in_map_iff. exists (ser, j). auto.
    + exists x. split; auto. split; auto. split; [eapply a_qnd; eauto|]. intros ->. rewrite baddr_eqb_refl in X. discriminate.
  - asilent s A [OReg h id].
  - asilent s A [OReg h id].
  - apply (ainv_silent s _ [OWrite a (ci_src x) (ci_out x) (io && match encodes E now (ci_out x) with Ok _ => true | _ => false end)] A);
      try reflexivity; pj.
    + intros b y Hy. refine (put_same _ _ k _ _ _ H _ Hy). reflexivity.
    + intros *. apply wake_lost.
  - apply (ainv_silent s _ [] A); try reflexivity; pj; [symmetry; apply app_nil_r| |].
    + intros b y Hy. rewrite get_set in Hy. destruct (baddr_eqb a b) eqn:X.
      * apply baddr_eqb_spec in X. subst b. injection Hy as <-. right. exists k. auto.
      * rewrite get_set, X in Hy. right. exists y. auto.
    + intros * Hy. apply wake_lost in Hy. now apply wake_lost in Hy.
  - apply (ainv_silent s _ [] A); try reflexivity; pj; [symmetry; apply app_nil_r| |].
    + intros b y Hy. refine (put_same _ _ k _ _ _ H _ Hy). reflexivity.
    + intros *. apply wake_lost.
  - apply (ainv_silent s _ [] A); try reflexivity; pj; [symmetry; apply app_nil_r| |].
    + intros b y Hy. refine (put_same _ _ k _ _ _ H _ Hy). reflexivity.
    + intros *. apply wake_lost.
  - apply (ainv_silent s _ [] A); try reflexivity; pj; [symmetry; apply app_nil_r| |].
    + intros b y Hy. refine (put_same _ _ k _ _ _ H _ Hy). reflexivity.
    + auto.
  - (* arrival that answers a connect *)
    apply (ainv_arrive s _ a i A); try reflexivity; pj.
    + intros b y Hy. rewrite get_set in Hy. destruct (baddr_eqb a b) eqn:X; [|exists y; auto].
      apply baddr_eqb_spec in X. subst b. injection Hy as <-. exists k. auto.
    + intros b m ser j Hp. apply wake_answered in Hp as [Hp|(Hp & Hw & Hin)]; [auto|]. right. injection Hw as -> ->.
      destruct Hin as [->|[]].
      assert (a = b).
      { unfold r_resolve in H3. destruct (ikey j) as [key|]; [|discriminate]. destruct (r_find key (k_res k)) as [m'|] eqn:F; [|discriminate].
        injection H3 as -> <-. apply r_find_in in F. exact (Hb b m Waiting Hp a k m key H F eq_refl). }
      subst b. split; auto. split; auto. split; auto. intros y Hy. rewrite get_set_same in Hy. injection Hy as <-. exists k. auto.
  - apply (ainv_arrive s _ a i A); try reflexivity; pj; auto.
    intros b y Hy. rewrite get_set in Hy. destruct (baddr_eqb a b) eqn:X; [|exists y; auto].
    apply baddr_eqb_spec in X. subst b. injection Hy as <-. exists k. auto.
  - apply (ainv_arrive s _ a i A); try reflexivity; pj.
    + intros b y Hy. rewrite get_set in Hy. destruct (baddr_eqb a b) eqn:X; [|exists y; auto].
      apply baddr_eqb_spec in X. subst b. injection Hy as <-. exists k. auto.
    + intros b m ser j Hp. apply wake_lost in Hp. auto.
Qed.
