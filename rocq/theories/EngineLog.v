(** Statements about each entry of the log. *)
From Verif Require Import Bytes Errors Wire Proto Codec Address Message Client Engine SpecEngine EngineFacts EngineInv EngineReq EngineEv EngineConn.
Open Scope N_scope.

(** * Ends and dials *)
Record sinv (s : sys) : Prop := mk_sinv {
  i_in : forall h, ch_client (s_ch s h) = true -> In h (map rc_h (s_clients s) ++ regq_handles s);
  i_stop : s_phase s = PStop <-> In OStop (s_log s);
  i_res : s_phase s = PStop -> s_res s = [];
  i_dial : forall a, In (ODial a true) (s_log s) <-> get_conn a (s_conns s) <> None;
  i_addr : NoDup (map fst (s_conns s)) }.
Definition mute (x : obs) : bool := match x with OStop | ODial _ true => false | _ => true end.
Lemma mute_cancel ns : forallb mute (cancel_all ns) = true.
Proof. induction ns; auto. Qed.
Lemma mute_ends hs f : forallb mute (ends_log hs f) = true.
Proof. apply forallb_forall. intros x Hx. apply ends_log_cancel in Hx as [n ->]. reflexivity. Qed.
Lemma mute_not c x : forallb mute c = true -> mute x = false -> ~ In x c.
Proof. intros H Hx Hin. rewrite forallb_forall in H. apply H in Hin. congruence. Qed.
Lemma set_conn_fst a k l : In a (map fst l) -> map fst (set_conn a k l) = map fst l.
Proof.
  induction l as [|[b x] r IH]; cbn; [tauto|]. destruct (baddr_eqb a b) eqn:X; cbn.
  - apply baddr_eqb_spec in X. now subst.
  - intros [->|H]; [rewrite baddr_eqb_refl in X; discriminate|]. f_equal. auto.
Qed.
Lemma set_conn_fst_new a k l : ~ In a (map fst l) -> map fst (set_conn a k l) = map fst l ++ [a].
Proof.
  induction l as [|[b x] r IH]; cbn; auto. intros H. destruct (baddr_eqb a b) eqn:X; cbn.
  - apply baddr_eqb_spec in X. subst. tauto.
  - f_equal. auto.
Qed.
Lemma get_conn_fst a l : get_conn a l <> None <-> In a (map fst l).
Proof.
  induction l as [|[b x] r IH]; cbn; [tauto|]. destruct (baddr_eqb a b) eqn:X.
  - apply baddr_eqb_spec in X. subst. split; [now left|discriminate].
  - rewrite IH. split; [auto|]. intros [->|H]; auto. rewrite baddr_eqb_refl in X. discriminate.
Qed.
Definition keys (s : sys) : list baddr := map fst (s_conns s).
Lemma sinv_gen s s' c :
  sinv s -> s_log s' = s_log s ++ c -> forallb mute c = true -> keys s' = keys s ->
  (forall h, ch_client (s_ch s' h) = true -> ch_client (s_ch s h) = true) ->
  map rc_h (s_clients s') ++ regq_handles s' = map rc_h (s_clients s) ++ regq_handles s ->
  (s_phase s' = PStop <-> s_phase s = PStop) -> (s_phase s = PStop -> s_res s' = s_res s) -> sinv s'.
Proof.
  intros [I1 I2 I3 I4 I5] El Hc Hk Hcl Hh Hp Hr.
  constructor.
  - intros h H. rewrite Hh. auto.
  - rewrite Hp, I2, El, in_app_iff. pose proof (mute_not c OStop Hc eq_refl). tauto.
  - intros H. apply Hp in H. rewrite Hr by auto. auto.
  - intros a. rewrite El, in_app_iff, I4, !get_conn_fst. fold (keys s') (keys s). rewrite Hk.
    pose proof (mute_not c (ODial a true) Hc eq_refl). tauto.
  - fold (keys s'). rewrite Hk. exact I5.
Qed.
Lemma sinv_stop s : sinv s -> sinv (stop s).
Proof.
  intros [I1 I2 I3 I4 I5]. rewrite stop_eq. constructor; pj; auto.
  - intros h. rewrite ends_ch_at. destruct (is_in h (ended s)); pj; apply I1.
  - split; auto. intros _. apply in_app_iff. right. now left.
  - intros a. rewrite <- I4, in_app_iff. split; [|auto]. intros [X|[X|X]]; auto; [discriminate|].
    apply in_app_iff in X as [X|X]; [apply cancel_all_cancel in X as [? X]|apply ends_log_cancel in X as [? X]]; discriminate.
Qed.
Lemma keys_put s a k k0 : get_conn a (s_conns s) = Some k0 -> map fst (set_conn a k (s_conns s)) = keys s.
Proof. intros H. apply set_conn_fst. apply get_conn_fst. congruence. Qed.
Lemma sinv_fwd s id n o s' : sinv s -> s_phase s <> PStop -> fwd s id n o s' -> sinv s'.
Proof.
  intros I Hp F. destruct F; [|now apply sinv_stop].
  apply (sinv_gen s _ [OForward n (rc_addr c) o] I); auto.
  - pj. eapply keys_put; eauto.
  - pj. destruct (is_connect o); split; congruence.
Qed.
Lemma sinv_moved E s id c : sinv s -> sinv (moved E s id c).
Proof.
  intros I. apply (sinv_gen s _ [] I); auto.
  - rewrite moved_log. symmetry. apply app_nil_r.
  - unfold keys. now rewrite moved_conns.
  - now rewrite moved_ch.
  - unfold regq_handles. now rewrite moved_h, moved_regq.
  - now rewrite moved_phase.
  - now rewrite moved_res.
Qed.
Lemma sinv_sent s a ser i s' : sinv s -> s_phase s <> PStop -> sent s a ser i s' -> sinv s'.
Proof.
  intros I Hp S. destruct S.
  - apply (sinv_gen s _ [OAnswer n ser i] I); auto; tauto.
  - apply (sinv_gen s _ [] I); auto; try tauto.
    + symmetry. apply app_nil_r.
    + intros h. pj. intros H1. rewrite <- H1. symmetry. apply push_ch_meta.
Qed.
Lemma sinv_taken s h q n res dropped : sinv s -> s_phase s <> PStop -> sinv (taken s h q n res dropped).
Proof.
  intros I Hp. apply (sinv_gen s _ (OTake n :: cancel_all dropped) I); auto; try tauto.
  - apply taken_log.
  - apply mute_cancel.
  - intros x. pose proof (meta_up s h q x) as M. unfold meta in M. pj. cbn in M. congruence.
Qed.
Lemma sinv_trans E s e s' : wf E s -> sinv s -> trans E s e s' -> sinv s'.
Proof.
  intros W I T. destruct T;
    repeat match goal with
      | |- sinv (stop _) => apply sinv_stop
      | F : fwd _ _ _ _ ?x |- sinv ?x => refine (sinv_fwd _ _ _ _ _ _ _ F); [|rewrite ?moved_phase; pj; clear -H; congruence]
      | |- sinv (moved _ _ _ _) => apply sinv_moved
      | |- sinv (taken _ _ _ _ _ _) => apply sinv_taken; [exact I|clear -H; congruence]
      end; try exact I.
  Ltac mv s I c := apply (sinv_gen s _ c I); [try reflexivity; symmetry; apply app_nil_r|try reflexivity|try reflexivity|try (intros ? ?; assumption)|try reflexivity|try (pj; tauto)|try (intros; reflexivity)].
  Ltac chs := pj; let z := fresh "z" in intros z; unfold set_ch; match goal with |- context [(z =? ?y)%nat] => destruct (Nat.eqb_spec z y) end; [subst z; cbn; try tauto; try discriminate|tauto].
  - mv s I (@nil obs).
  - pose proof I as [I1 I2 I3 I4 I5]. constructor; pj; auto.
    unfold regq_handles. pj. rewrite map_app. pj. intros h. unfold set_ch. destruct (Nat.eqb_spec h (s_nh s)) as [->|Hn].
    + intros _. rewrite !in_app_iff. cbn. tauto.
    + intros X. apply I1 in X. unfold regq_handles in X. rewrite !in_app_iff in *. tauto.
  - mv s I [ORegErr (s_nh s)].
  - mv s I [OConfirm h]. chs.
  - mv s I [ORegErr h]. chs.
  - mv s I (@nil obs). chs.
  - mv s I (@nil obs).
  - mv s I (ends_log (regq_handles s) (s_ch s)); [apply mute_ends|]. pj. intros h. rewrite ends_ch_at. now destruct (is_in h (regq_handles s)).
  - mv s I [OIssue h (s_nreq s) o]. chs.
  - mv s I [ORefuse h o].
  - mv s I [OGot h i]. chs.
  - mv s I [OGone h].
  - mv s I (if ch_engine (s_ch s h) then [] else cancel_all (queued_requests (s_ch s h))); [|chs].
    destruct (ch_engine (s_ch s h)); [reflexivity|apply mute_cancel].
  - (* first dial *)
    pose proof I as [I1 I2 I3 I4 I5]. destruct (wf_start E s W H) as [Wc Wk]. constructor; pj; auto.
    + rewrite in_app_iff, <- I2, H. cbn. split; [discriminate|]. intros [X|[X|[]]]; discriminate.
    + discriminate.
    + intros a. rewrite in_app_iff, I4, get_set. cbn [In]. match goal with |- context [baddr_eqb ?y a] => destruct (baddr_eqb y a) eqn:X end.
      * apply baddr_eqb_spec in X. subst a. split; [discriminate|auto].
      * split; [|auto]. intros [Y|[Y|[]]]; auto. injection Y as <-. rewrite baddr_eqb_refl in X. discriminate.
    + rewrite Wk. cbn. constructor; [auto|constructor].
  - mv s I [ODial (broker_address (e_cfg E)) false].
  - apply (sinv_gen (taken s h q n res dropped) _ []); auto; [now apply sinv_taken; [|congruence]|symmetry; apply app_nil_r|].
    pj. rewrite H. split; discriminate.
  - apply (sinv_gen (taken s h q n res dropped) _ []); auto; [now apply sinv_taken; [|congruence]|symmetry; apply app_nil_r|].
    pj. rewrite H. split; discriminate.
  - mv s I [OAuthed n r].
  - mv s I [OAuthed n (Ok d)]. pj. rewrite H. split; discriminate.
  - mv s I [OAuthed n (Ok d)].
  - (* dialled *)
    pose proof I as [I1 I2 I3 I4 I5]. pose proof (wf_dial E s W) as Wd. rewrite H in Wd. constructor; pj; auto.
    + rewrite in_app_iff, <- I2, H. cbn. split; [discriminate|]. intros [X|[X|[]]]; discriminate.
    + intros a. rewrite in_app_iff, I4, get_set. cbn [In]. match goal with |- context [baddr_eqb ?y a] => destruct (baddr_eqb y a) eqn:X end.
      * apply baddr_eqb_spec in X. subst a. split; [discriminate|auto].
      * split; [|auto]. intros [Y|[Y|[]]]; auto. injection Y as <-. rewrite baddr_eqb_refl in X. discriminate.
    + assert (Hn : ~ In (caddr E c) (map fst (s_conns s))) by (rewrite <- get_conn_fst; tauto).
      rewrite set_conn_fst_new by auto. apply NoDup_snoc; auto.
  - mv s I [ODial (caddr E c) false].
  - refine (sinv_sent _ _ _ _ _ _ _ H0); [|pj; discriminate]. mv s I [OHandle a ser i]. pj. rewrite H. split; discriminate.
  - mv s I [OHandle a ser InPing; OPonged a]. pj. eapply keys_put; eauto.
  - mv s I [OHandle a ser InPing]. pj. eapply keys_put; eauto.
  - refine (sinv_sent _ _ _ _ _ _ _ H4); [|pj; congruence]. mv s I [OHandle a ser i]. pj. eapply keys_put; eauto.
  - mv s I [OReg h id]. pj. unfold regq_handles. pj. rewrite H0, map_app. cbn. now rewrite <- app_assoc.
  - mv s I [OReg h id]. pj. unfold regq_handles. pj. rewrite H0, map_app. cbn. now rewrite <- app_assoc.
  - apply (sinv_gen s _ [OWrite a (ci_src x) (ci_out x) (io && match encodes E now (ci_out x) with Ok _ => true | _ => false end)] I); auto.
    + pj. eapply keys_put; eauto.
    + pj. apply wake_stop.
  - apply (sinv_gen s _ [] I); auto.
    + symmetry. apply app_nil_r.
    + unfold keys. pj. rewrite set_conn_fst; [eapply keys_put; eauto|]. apply get_conn_fst. rewrite get_set_same. discriminate.
    + pj. rewrite !wake_stop. tauto.
  - apply (sinv_gen s _ [] I); auto.
    + symmetry. apply app_nil_r.
    + pj. eapply keys_put; eauto.
    + pj. apply wake_stop.
  - apply (sinv_gen s _ [] I); auto.
    + symmetry. apply app_nil_r.
    + pj. eapply keys_put; eauto.
    + pj. apply wake_stop.
  - mv s I (@nil obs). pj. eapply keys_put; eauto.
  - mv s I [OArrive a (s_narr s) i]; pj; [eapply keys_put; eauto|apply wake_stop].
  - mv s I [OArrive a (s_narr s) i]. pj. eapply keys_put; eauto.
  - mv s I [OArrive a (s_narr s) i]; pj; [eapply keys_put; eauto|apply wake_stop].
Qed.

(** * Everything together *)
Record inv (E : env) (s : sys) : Prop := mk_inv {
  v_wf : wf E s; v_h : hinv s; v_f : fresh s; v_r : rinv s; v_c : cinv E s; v_a : ainv s; v_s : sinv s }.
Lemma sinv_init : sinv sys_init.
Proof.
  constructor; cbn; try tauto; try discriminate; try constructor; try discriminate; try tauto.
Qed.
Lemma inv_init E : inv E sys_init.
Proof.
  destruct (reach_cinv E [] sys_init eq_refl) as (A & B & C & D & F). constructor; auto; [apply wf_init|apply sinv_init].
Qed.
Lemma inv_trans E s e s' : inv E s -> trans E s e s' -> inv E s'.
Proof.
  intros [W Hh Hf R C A S] T. constructor.
  - eapply wf_trans; eauto.
  - eapply hinv_trans; eauto.
  - eapply fresh_trans; eauto.
  - eapply rinv_trans; eauto.
  - eapply cinv_trans; eauto.
  - refine (ainv_trans E s e s' _ A T).
    intros a n w Hp b k m key Hk Hin ->. pose proof (c_ph E s C) as P. unfold phase_ok in P. rewrite Hp in P.
    destruct P as (_ & (c & P) & _). destruct (c_res E s C b k key n Hk Hin) as (_ & c' & Q).
    apply (c_fw1 E s C n b _ a _ Q P).
  - eapply sinv_trans; eauto.
Qed.
Lemma reach_all E h s : reach E h s -> inv E s.
Proof.
  revert h s. apply reach_inv; [apply inv_init|]. intros s e s' _ I T. eapply inv_trans; eauto.
Qed.
(** From any reachable state on. *)
Lemma inv_run E s0 h s : inv E s0 -> run E s0 h = Some s -> inv E s.
Proof.
  intros I H. refine (proj2 (run_ind E (fun _ s => inv E s) s0 (v_wf E s0 I) I _ h s H)). intros; eapply inv_trans; eauto.
Qed.

Lemma waiting_res s n k : rinv s -> (waiting_on (s_log s) n k <-> In (k, n) (s_res s)).
Proof.
  intros R. split; [|apply (r_res s R)]. intros (o & [h A1] & A2 & A3 & A4 & A5).
  destruct (r_done s R n o A4 (ex_intro _ h A1) A2) as [X|X]; [contradiction|].
  apply in_map_iff in X as ([k' m] & E & X). cbn in E. subst m.
  destruct (r_res s R k' n X) as (o' & [h' B1] & _ & B3 & _). destruct (r_uniq s R _ _ _ _ _ A1 B1) as [_ <-]. congruence.
Qed.
Lemma waiting_find s n k : rinv s -> (waiting_on (s_log s) n k <-> r_find k (s_res s) = Some n).
Proof.
  intros R. rewrite (waiting_res s n k R). split; [apply r_find_nodup, (r_keys s R)|apply r_find_in].
Qed.
Lemma fix_key a i : ikey (fix_lookup a i) = ikey i.
Proof. destruct i; reflexivity. Qed.

(** What holds of each entry, given what precedes and what follows it. *)
Definition entry (E : env) (l1 : list obs) (x : obs) (l2 : list obs) : Prop :=
  match x with
  | OTake n => ~ In OStop l1 /\ (exists o, requested l1 n o) /\ (forall m, ~ waiting_on l1 m kconnect) /\
      forall m k o, waiting_on l1 m k -> requested l1 n o -> asks o = true -> okey o = Some k -> exists r, l2 = OCancel m :: r
  | OCancel m => In OStop l1 \/ exists l0 n k o, l1 = l0 ++ [OTake n] /\ waiting_on l0 m k /\ requested l0 n o /\ asks o = true /\ okey o = Some k
  | OHandle a ser i => ~ In OStop l1 /\ In (OArrive a ser i) l1 /\
      (i = InPing -> exists r, l2 = OPonged a :: r \/ l2 = OStop :: r) /\
      (forall n k, waiting_on l1 n k -> ikey i = Some k -> exists r, l2 = OAnswer n ser (fix_lookup a i) :: r)
  | OAnswer n ser i => exists l0 a i0 k, l1 = l0 ++ [OHandle a ser i0] /\ i = fix_lookup a i0 /\ ikey i = Some k /\ waiting_on l0 n k
  | OPonged a => exists l0 ser, l1 = l0 ++ [OHandle a ser InPing]
  | OWrite a src o ok => match src with Some n => In (OForward n a o) l1 | None => o = OPong end
  | ODial a ok => ~ In (ODial a true) l1 /\ ~ In OStop l1 /\ (ok = false -> exists r, l2 = OStop :: r)
  | OForward n a o => ~ In OStop l1 /\ In (ODial a true) l1 /\ In n (takes l1) /\ (forall b o', ~ In (OForward n b o') l1) /\
      exists q, requested l1 n q /\ formed E l1 n q o
  | OAuthed n r => ~ In OStop l1 /\ (forall r', ~ In (OAuthed n r') l1) /\ ((exists d, r = Ok d) \/ exists l, l2 = OStop :: l)
  | OStop => ~ In OStop l1
  | OArrive a ser i => In (ODial a true) l1 /\ (forall b j, ~ In (OArrive b ser j) l1)
  | _ => True
  end.
Lemma entry_closed E : forward_closed (entry E).
Proof.
  intros l1 x l2 l3 H. unfold entry in *. destruct x; auto.
  - destruct H as (H0 & H1 & H2 & H). split; auto. split; auto. split; auto. intros m k o A B C D. destruct (H m k o A B C D) as [r ->]. eexists. reflexivity.
  - destruct H as (H1 & H2 & [H|[r0 ->]]); split; auto; split; auto. right. eexists. reflexivity.
  - destruct H as (H1 & H2 & H3). split; auto. split; auto. intros Hk. destruct (H3 Hk) as [r ->]. eexists. reflexivity.
  - destruct H as (H0 & H1 & H2 & H3). split; auto. split; auto. split.
    + intros Hi. destruct (H2 Hi) as [r [->| ->]]; eexists; [left|right]; reflexivity.
    + intros n k A B. destruct (H3 n k A B) as [r ->]. eexists. reflexivity.
Qed.
Lemma chunk_cancel E l ns : In OStop l -> chunk (entry E) l (cancel_all ns).
Proof.
  revert l. induction ns as [|n ns IH]; intros l H; cbn; auto. split; auto. apply IH. apply in_app_iff; auto.
Qed.
Lemma chunk_ends E l hs f : In OStop l -> chunk (entry E) l (ends_log hs f).
Proof.
  intros H. rewrite chunk_every. intros c1 x c2 Ec. assert (Hx : In x (ends_log hs f)) by (rewrite Ec; apply in_elt).
  apply ends_log_cancel in Hx as [n ->]. cbn. left. apply in_app_iff; auto.
Qed.
Definition stop_log (s : sys) : list obs := (OStop :: cancel_all (map snd (s_res s))) ++ ends_log (ended s) (s_ch s).
Lemma stop_log_eq s : s_log (stop s) = s_log s ++ stop_log s.
Proof. rewrite stop_eq. reflexivity. Qed.
Lemma chunk_stop E l s : ~ In OStop l -> chunk (entry E) l (stop_log s).
Proof.
  intros H. unfold stop_log. cbn [app chunk]. split; [exact H|].
  rewrite chunk_every. intros c1 x c2 Ec.
  assert (Hx : In x (cancel_all (map snd (s_res s)) ++ ends_log (ended s) (s_ch s))) by (rewrite Ec; apply in_elt).
  apply in_app_iff in Hx. assert (exists n, x = OCancel n) as [n ->] by (destruct Hx as [Hx|Hx]; [now apply cancel_all_cancel in Hx|now apply ends_log_cancel in Hx]).
  cbn. left. rewrite !in_app_iff. left. right. now left.
Qed.
(** The entry with the rest of its transition. *)
Lemma chunk_one E l x : entry E l x [] -> chunk (entry E) l [x].
Proof. cbn. auto. Qed.
Lemma chunk_cons E l x c : entry E l x c -> chunk (entry E) (l ++ [x]) c -> chunk (entry E) l (x :: c).
Proof. cbn. auto. Qed.

(** Taking a request. *)
Lemma chunk_take E s h n o q res dropped c :
  inv E s -> s_phase s = PRun -> ch_up (s_ch s h) = (n, o) :: q ->
  (if asks o then r_put (okey o) n (s_res s) else (s_res s, [])) = (res, dropped) ->
  chunk (entry E) (s_log s ++ OTake n :: cancel_all dropped) c ->
  chunk (entry E) (s_log s) (OTake n :: cancel_all dropped ++ c).
Proof.
  intros I Hp Hu Hr Hc. pose proof (v_r E s I) as R.
  assert (Hns : ~ In OStop (s_log s)) by (rewrite <- (i_stop s (v_s E s I)), Hp; discriminate).
  destruct (r_up s R h n o) as (U1 & U2 & U3); [rewrite Hu; now left|].
  assert (Ho : forall o', requested (s_log s) n o' -> o' = o) by (intros o' [h' X]; destruct (r_uniq s R _ _ _ _ _ X U1) as [_ ?]; auto).
  apply chunk_cons.
  - split; auto. split; [exists o, h; exact U1|]. split.
    { intros m Hw. apply (waiting_find s m kconnect R) in Hw. pose proof (c_ph E s (v_c E s I)) as P. unfold phase_ok in P. rewrite Hp in P. congruence. }
    intros m k o' Hw Hq Ha Hk. apply Ho in Hq. subst o'. apply (waiting_find s m k R) in Hw.
    apply put_cases in Hr as [(Ha' & _)|(k' & _ & Hk' & _ & ->)]; [congruence|].
    assert (k' = k) by congruence. subst k'. rewrite Hw. cbn. eexists. reflexivity.
  - apply chunk_app. split; [|rewrite <- app_assoc; exact Hc].
    apply put_cases in Hr as [(_ & _ & ->)|(k & Ha & Hk & _ & ->)]; [exact Logic.I|].
    destruct (r_find k (s_res s)) as [m|] eqn:F; [|exact Logic.I]. cbn. split; auto. right. exists (s_log s), n, k, o.
    split; auto. split; [now apply (waiting_find s m k R)|]. split; [now exists h|auto].
Qed.
(** Delivering an event. *)
Lemma chunk_sent E s s1 a ser i i' s' :
  inv E s -> s_phase s <> PStop -> i' = fix_lookup a i -> i <> InPing -> In (OArrive a ser i) (s_log s) ->
  s_log s1 = s_log s ++ [OHandle a ser i] -> s_res s1 = s_res s -> sent s1 a ser i' s' ->
  exists c, s_log s' = s_log s ++ c /\ chunk (entry E) (s_log s) c.
Proof.
  intros I Hp -> Hi Ha El Er S. pose proof (v_r E s I) as R.
  assert (Hns : ~ In OStop (s_log s)) by (rewrite <- (i_stop s (v_s E s I)); exact Hp).
  destruct S as [n r Hr|Hr]; rewrite Er, fix_key in Hr; unfold r_resolve in Hr.
  - destruct (ikey i) as [k|] eqn:K; [|discriminate]. destruct (r_find k (s_res s)) as [m|] eqn:F; [|discriminate]. injection Hr as -> <-.
    exists [OHandle a ser i; OAnswer n ser (fix_lookup a i)]. split; [cbn; rewrite El, <- app_assoc; reflexivity|].
    apply chunk_cons; [|apply chunk_one].
    + split; auto. split; auto. split; [congruence|]. intros n' k' Hw Hk. assert (k' = k) by congruence. subst k'.
      apply (waiting_find s n' k R) in Hw. assert (n' = n) by congruence. subst. eexists. reflexivity.
    + exists (s_log s), a, i, k. split; auto. split; auto. rewrite fix_key. split; auto. now apply (waiting_find s n k R).
  - exists [OHandle a ser i]. split; [exact El|]. apply chunk_one. split; auto. split; auto. split; [congruence|].
    intros n k Hw Hk. apply (waiting_find s n k R) in Hw. rewrite Hk, Hw in Hr. discriminate.
Qed.
(** Forwarding. *)
Lemma chunk_fwd E s s1 id n o s' l c0 :
  sinv s -> fwd s1 id n o s' -> s_conns s1 = s_conns s \/ (exists a, s_conns s1 = set_conn a conn_init (s_conns s) /\ In (ODial a true) l) ->
  l = s_log s ++ c0 -> s_log s1 = l -> ~ In OStop l -> In n (takes l) -> (forall b o', ~ In (OForward n b o') l) ->
  (exists q, requested l n q /\ formed E l n q o) ->
  exists c, s_log s' = l ++ c /\ chunk (entry E) l c.
Proof.
  intros I F Hc Hl El Hns Ht Hnf Hq. destruct F.
  - exists [OForward n (rc_addr c) o]. split; [cbn; now rewrite El|]. apply chunk_one. split; auto. split; auto.
    assert (Hn : get_conn (rc_addr c) (s_conns s1) <> None) by congruence.
    destruct Hc as [Hc|(a & Hc & Ha)]; rewrite Hc in Hn.
    + subst l. apply in_app_iff. left. now apply (i_dial s I).
    + rewrite get_set in Hn. destruct (baddr_eqb a (rc_addr c)) eqn:X; [apply baddr_eqb_spec in X; now subst a|].
      subst l. apply in_app_iff. left. now apply (i_dial s I).
  - exists (stop_log s1). rewrite stop_log_eq, El. split; auto. now apply chunk_stop.
Qed.
Lemma trans_entries E s e s' :
  inv E s -> trans E s e s' -> exists c, s_log s' = s_log s ++ c /\ chunk (entry E) (s_log s) c.
Proof.
  intros I T. pose proof I as [W Hh Hf R C A S]. pose proof (c_ph E s C) as P.
  assert (N : s_phase s <> PStop -> ~ In OStop (s_log s)) by (rewrite <- (i_stop s S); auto).
  assert (G : s_log s' = s_log s -> exists c, s_log s' = s_log s ++ c /\ chunk (entry E) (s_log s) c).
  { intros X. exists []. rewrite app_nil_r. split; [exact X|exact Logic.I]. }
  destruct T; try (apply G; reflexivity); clear G; unfold phase_ok in P.
  Ltac one x := exists [x]; split; [reflexivity|apply chunk_one; cbn; auto].
  - one (ORegErr (s_nh s)).
  - one (OConfirm h).
  - one (ORegErr h).
  - exists (ends_log (regq_handles s) (s_ch s)). split; [reflexivity|]. apply chunk_ends. now apply (i_stop s S).
  - one (OIssue h (s_nreq s) o).
  - one (ORefuse h o).
  - one (OGot h i).
  - one (OGone h).
  - exists (if ch_engine (s_ch s h) then [] else cancel_all (queued_requests (s_ch s h))). split; [reflexivity|].
    destruct (ch_engine (s_ch s h)) eqn:En; [exact Logic.I|]. apply chunk_cancel. apply (i_stop s S).
    pose proof (i_in s S h H) as Hin. destruct (s_phase s) eqn:Ph; auto; exfalso;
      (assert (Y : ch_engine (s_ch s h) = true); [|congruence]); apply (h_engine s Hh); apply in_app_iff in Hin as [X|X];
      [left|right|left|right|left|right|left|right|left|right]; split; auto; try (left; congruence); congruence.
  - one (ODial (broker_address (e_cfg E)) true). split; [|split; [apply N; congruence|discriminate]].
    rewrite (i_dial s S). destruct (wf_start E s W H) as [_ ->]. cbn. tauto.
  - exists (ODial (broker_address (e_cfg E)) false :: stop_log (say s [ODial (broker_address (e_cfg E)) false])).
    rewrite stop_log_eq. split; [cbn; rewrite <- app_assoc; reflexivity|]. apply chunk_cons.
    + cbn. split; [|split; [apply N; congruence|eexists; reflexivity]]. rewrite (i_dial s S). destruct (wf_start E s W H) as [_ ->]. cbn. tauto.
    + apply chunk_stop. rewrite in_app_iff. intros [X|[X|[]]]; [revert X; apply N; congruence|discriminate].
  - (* take a plain command *)
    rewrite H in P. destruct (r_up s R h n o) as (U1 & U2 & U3); [rewrite H2; now left|].
    destruct (chunk_fwd E s _ _ _ _ _ (s_log (taken s h q n res dropped)) (OTake n :: cancel_all dropped) S H5) as (c0 & E0 & Hc0); auto.
    + apply taken_log.
    + rewrite taken_log, in_app_iff. intros [X|[X|X]]; [revert X; apply N; congruence|discriminate|].
      apply cancel_all_cancel in X as [? X]. discriminate.
    + rewrite taken_takes, in_app_iff. right. now left.
    + intros b o' X. apply taken_old in X; auto. apply (c_fw E s C) in X. tauto.
    + exists o. split; [exists h; apply taken_old; auto|]. destruct o; try reflexivity. discriminate.
    + exists (OTake n :: cancel_all dropped ++ c0). rewrite E0, taken_log in *. split; [now rewrite <- app_assoc|].
      eapply chunk_take; eauto.
  - exists (OTake n :: cancel_all dropped ++ []). split; [pj; rewrite app_nil_r, <- app_assoc; reflexivity|].
    eapply (chunk_take E s h n (OConnect r)); eauto. exact Logic.I.
  - exists (OTake n :: cancel_all dropped ++ []). split; [pj; rewrite app_nil_r, <- app_assoc; reflexivity|].
    eapply (chunk_take E s h n (OConnect r)); eauto. exact Logic.I.
  - destruct (r_up s R h n (OConnect r)) as (U1 & U2 & U3); [rewrite H2; now left|].
    pose proof (c_api E s C h n _ U1) as (_ & Ha).
    assert (Hd : cn_auth_data r = None /\ cn_auth_method r = None).
    { clear -Ha. cbn in Ha. destruct (cn_auth_data r), (cn_auth_method r), (cn_addr r); try discriminate; auto. }
    destruct (chunk_fwd E s _ _ _ _ _ (s_log (taken s h q n res dropped)) (OTake n :: cancel_all dropped) S H6) as (c0 & E0 & Hc0); auto.
    + left. rewrite moved_conns. reflexivity.
    + apply taken_log.
    + apply moved_log.
    + rewrite taken_log, in_app_iff. intros [X|[X|X]]; [revert X; apply N; congruence|discriminate|].
      apply cancel_all_cancel in X as [? X]. discriminate.
    + rewrite taken_takes, in_app_iff. right. now left.
    + intros b o' X. apply taken_old in X; auto. apply (c_fw E s C) in X. tauto.
    + exists (OConnect r). split; [exists h; apply taken_old; auto|]. exists None, None. split; [unfold filled; destruct Hd as [-> ->]; reflexivity|]. now rewrite H4.
    + exists (OTake n :: cancel_all dropped ++ c0). rewrite E0, taken_log in *. split; [now rewrite <- app_assoc|].
      eapply (chunk_take E s h n (OConnect r)); eauto.
  - exists (stop_log s). rewrite stop_log_eq. split; auto. apply chunk_stop, N. congruence.
  - rewrite H in P. destruct P as (P1 & P2 & P3 & P4 & P5 & q & P6 & P7).
    exists (OAuthed n r :: stop_log (say s [OAuthed n r])). rewrite stop_log_eq. split; [cbn; rewrite <- app_assoc; reflexivity|].
    apply chunk_cons.
    + cbn. split; [apply N; congruence|]. split; auto. right. eexists. reflexivity.
    + apply chunk_stop. rewrite in_app_iff. intros [X|[X|[]]]; [revert X; apply N; congruence|discriminate].
  - rewrite H in P. destruct P as (P1 & P2 & P3 & P4 & P5 & q & P6 & P7). one (OAuthed n (Ok d)).
    split; [apply N; congruence|]. split; eauto.
  - rewrite H in P. destruct P as (P1 & P2 & P3 & P4 & P5 & q & P6 & P7).
    destruct (chunk_fwd E s _ _ _ _ _ (s_log s ++ [OAuthed n (Ok d)]) [OAuthed n (Ok d)] S H1) as (c0 & E0 & Hc0); auto.
    + left. rewrite moved_conns. reflexivity.
    + rewrite moved_log. reflexivity.
    + rewrite in_app_iff. intros [X|[X|[]]]; [revert X; apply N; congruence|discriminate].
    + rewrite takes_app, in_app_iff. auto.
    + intros b o' X. apply in_app_iff in X as [X|[X|[]]]; [eapply P3; eauto|discriminate].
    + exists (OConnect q). split; [now apply requested_app|]. exists (Some d), (e_auth E). subst c. split; [reflexivity|].
      destruct (e_auth E); [|congruence]. split; auto. exists d. split; auto. apply in_app_iff. right. now left.
    + exists (OAuthed n (Ok d) :: c0). rewrite E0, <- app_assoc. split; auto. apply chunk_cons; auto.
      split; [apply N; congruence|]. split; eauto.
  - rewrite H in P. destruct P as (P1 & P2 & P3 & q & P6 & P7). pose proof (wf_dial E s W) as Wd. rewrite H in Wd.
    assert (D : In (ODial (caddr E c) true) (s_log s ++ [ODial (caddr E c) true])) by (apply in_app_iff; right; now left).
    destruct (chunk_fwd E s _ _ _ _ _ (s_log s ++ [ODial (caddr E c) true]) [ODial (caddr E c) true] S H0) as (c0 & E0 & Hc0); auto.
    + right. exists (caddr E c). rewrite moved_conns. split; auto.
    + rewrite moved_log. reflexivity.
    + rewrite in_app_iff. intros [X|[X|[]]]; [revert X; apply N; congruence|discriminate].
    + rewrite takes_app, in_app_iff. auto.
    + intros b o' X. apply in_app_iff in X as [X|[X|[]]]; [eapply P3; eauto|discriminate].
    + exists (OConnect q). split; [now apply requested_app|now apply formed_app].
    + exists (ODial (caddr E c) true :: c0). rewrite E0, <- app_assoc. split; auto. apply chunk_cons; auto.
      cbn. rewrite (i_dial s S). split; [tauto|]. split; [apply N; congruence|discriminate].
  - pose proof (wf_dial E s W) as Wd. rewrite H in Wd.
    exists (ODial (caddr E c) false :: stop_log (say s [ODial (caddr E c) false])).
    rewrite stop_log_eq. split; [cbn; rewrite <- app_assoc; reflexivity|]. apply chunk_cons.
    + cbn. rewrite (i_dial s S). split; [tauto|]. split; [apply N; congruence|eexists; reflexivity].
    + apply chunk_stop. rewrite in_app_iff. intros [X|[X|[]]]; [revert X; apply N; congruence|discriminate].
  - rewrite H in P. destruct P as (P1 & P2 & P3). specialize (P3 ser i eq_refl). subst i.
    destruct (a_ph s A a n ser _ H) as (X1 & X2 & X3).
    refine (chunk_sent E s _ a ser InConnected _ s' I _ _ _ X1 _ _ H0); try reflexivity; try discriminate. congruence.
  - exists (stop_log s). rewrite stop_log_eq. split; auto. apply chunk_stop, N. congruence.
  - destruct (a_q s A a k ser InPing H1) as [X1 X2]; [rewrite H2; now left|].
    exists [OHandle a ser InPing; OPonged a]. split; [reflexivity|]. apply chunk_cons; [|apply chunk_one].
    + split; [apply N; congruence|]. split; auto. split; [eexists; left; reflexivity|]. discriminate.
    + exists (s_log s), ser. reflexivity.
  - destruct (a_q s A a k ser InPing H1) as [X1 X2]; [rewrite H2; now left|].
    eexists (OHandle a ser InPing :: stop_log _). rewrite stop_log_eq. split; [cbn [s_log say]; rewrite <- app_assoc; reflexivity|]. apply chunk_cons.
    + split; [apply N; congruence|]. split; auto. split; [eexists; right; reflexivity|]. discriminate.
    + apply chunk_stop. rewrite in_app_iff. intros [X|[X|[]]]; [revert X; apply N; congruence|discriminate].
  - destruct (a_q s A a k ser i H1) as [X1 X2]; [rewrite H2; now left|].
    refine (chunk_sent E s _ a ser i _ s' I _ eq_refl H3 X1 _ _ H4); try reflexivity. congruence.
  - exists (stop_log s). rewrite stop_log_eq. split; auto. apply chunk_stop, N. congruence.
  - one (OReg h id).
  - eexists (OReg h id :: stop_log _). rewrite stop_log_eq. split; [cbn [s_log say]; rewrite <- app_assoc; reflexivity|]. apply chunk_cons; [exact Logic.I|].
    apply chunk_stop. rewrite in_app_iff. intros [X|[X|[]]]; [revert X; apply N; congruence|discriminate].
  - exists (stop_log s). rewrite stop_log_eq. split; auto. apply chunk_stop, N. congruence.
  - eexists [_]. split; [reflexivity|]. apply chunk_one. cbn. destruct (c_item E s C a k x H) as [_ X]; [rewrite H1; now left|]. exact X.
  - one (OArrive a (s_narr s) i). split; [apply (i_dial s S); congruence|]. intros b j X. apply (a_lt s A) in X. lia.
  - one (OArrive a (s_narr s) i). split; [apply (i_dial s S); congruence|]. intros b j X. apply (a_lt s A) in X. lia.
  - one (OArrive a (s_narr s) i). split; [apply (i_dial s S); congruence|]. intros b j X. apply (a_lt s A) in X. lia.
Qed.
Lemma reach_entries E h s : reach E h s -> every (entry E) (s_log s).
Proof.
  intros H. assert (X : inv E s /\ every (entry E) (s_log s)); [|tauto].
  revert h s H. apply (reach_inv E (fun s => inv E s /\ every (entry E) (s_log s))).
  - split; [apply inv_init|]. intros l1 x l2 X. destruct l1; discriminate.
  - intros s e s' W [I V] T. split; [eapply inv_trans; eauto|].
    destruct (trans_entries E s e s' I T) as (c & -> & Hc). apply every_app; auto. apply entry_closed.
Qed.
