(** Where a connect the engine waits for is: queued, or written and waited for by
    the connection, or answered or lost. *)
From Verif Require Import Bytes Errors Wire Proto Codec Address Message Client Engine SpecEngine SpecEngine2 EngineFacts EngineInv EngineReq EngineEv EngineConn EngineLog EngineLife.
Open Scope N_scope.

Definition qsrc (q : list citem) : list nat := flat_map (fun x => match ci_src x with Some n => [n] | None => [] end) q.
Lemma qsrc_app p q : qsrc (p ++ q) = qsrc p ++ qsrc q.
Proof. apply flat_map_app. Qed.
Definition ph_ok (l : list (baddr * conn)) (p : phase) : Prop :=
  match p with
  | PConn a n w => exists k, get_conn a l = Some k /\
      match w with
      | Waiting => In n (qsrc (k_e2n k)) \/ In n (map snd (k_res k))
      | _ => ~ In n (qsrc (k_e2n k)) /\ ~ In n (map snd (k_res k))
      end
  | _ => True
  end.
Record winv (s : sys) : Prop := mk_winv {
  w_nd : forall a k, get_conn a (s_conns s) = Some k -> NoDup (qsrc (k_e2n k) ++ map snd (k_res k));
  w_dead : forall a k, get_conn a (s_conns s) = Some k -> k_alive k = false -> k_res k = [];
  w_one : forall a k, get_conn a (s_conns s) = Some k -> (length (k_res k) <= 1)%nat;
  w_ph : ph_ok (s_conns s) (s_phase s) }.

Definition alike (x y : option conn) : Prop :=
  match x, y with
  | Some k, Some k' => qsrc (k_e2n k') = qsrc (k_e2n k) /\ k_res k' = k_res k /\ k_alive k' = k_alive k
  | None, Some k' => qsrc (k_e2n k') = [] /\ k_res k' = [] /\ k_alive k' = true
  | None, None => True
  | Some _, None => False
  end.
Lemma alike_refl x : alike x x.
Proof. destruct x; cbn; auto. Qed.
Lemma ph_alike l l' p : (forall a, alike (get_conn a l) (get_conn a l')) -> ph_ok l p -> ph_ok l' p.
Proof.
  intros A H. destruct p as [| | | |a n w|]; auto. destruct H as (k & Hk & H). specialize (A a). rewrite Hk in A.
  destruct (get_conn a l') as [k'|] eqn:Hk'; [|destruct A]. destruct A as (A1 & A2 & _).
  exists k'. split; auto. now rewrite A1, A2.
Qed.
Lemma winv_gen s s' : winv s -> (forall a, alike (get_conn a (s_conns s)) (get_conn a (s_conns s'))) -> ph_ok (s_conns s') (s_phase s') -> winv s'.
Proof.
  intros [H1 H2 H3 H4] A P. constructor; auto.
  - intros a k Hk. specialize (A a). rewrite Hk in A. destruct (get_conn a (s_conns s)) as [k0|] eqn:Hk0; cbn in A; destruct A as (A1 & A2 & _).
    + rewrite A1, A2. eauto.
    + rewrite A1, A2. constructor.
  - intros a k Hk Ha. specialize (A a). rewrite Hk in A. destruct (get_conn a (s_conns s)) as [k0|] eqn:Hk0; cbn in A; destruct A as (A1 & A2 & A3); [|congruence].
    rewrite A2. apply (H2 a); congruence.
  - intros a k Hk. specialize (A a). rewrite Hk in A. destruct (get_conn a (s_conns s)) as [k0|] eqn:Hk0; cbn in A; destruct A as (A1 & A2 & _); rewrite A2; eauto.
Qed.
Lemma winv_same s s' : winv s -> s_conns s' = s_conns s -> (s_phase s' = s_phase s \/ forall a n w, s_phase s' <> PConn a n w) -> winv s'.
Proof.
  intros H E P. apply (winv_gen s); auto.
  - intros a. rewrite E. apply alike_refl.
  - destruct P as [-> |P]; [rewrite E; apply (w_ph s H)|]. destruct (s_phase s') as [| | | |a n w|]; try exact I. exfalso. eapply P; eauto.
Qed.
Lemma winv_stop s s0 : winv s -> s_conns s0 = s_conns s -> winv (stop s0).
Proof. intros H E. apply (winv_same s); auto; [now rewrite stop_conns|]. right. rewrite stop_phase. discriminate. Qed.
Lemma alike_put l a k k0 b : get_conn a l = Some k0 -> qsrc (k_e2n k) = qsrc (k_e2n k0) -> k_res k = k_res k0 -> k_alive k = k_alive k0 ->
  alike (get_conn b l) (get_conn b (set_conn a k l)).
Proof.
  intros H H1 H2 H3. rewrite get_set. destruct (baddr_eqb a b) eqn:X; [|apply alike_refl].
  apply baddr_eqb_spec in X. subst b. rewrite H. cbn. auto.
Qed.
Lemma alike_new l a b : get_conn a l = None -> alike (get_conn b l) (get_conn b (set_conn a conn_init l)).
Proof.
  intros H. rewrite get_set. destruct (baddr_eqb a b) eqn:X; [|apply alike_refl].
  apply baddr_eqb_spec in X. subst b. rewrite H. cbn. auto.
Qed.
(** One connection changes. *)
Lemma winv_put s s' a k k0 : winv s -> get_conn a (s_conns s) = Some k0 -> s_conns s' = set_conn a k (s_conns s) ->
  NoDup (qsrc (k_e2n k) ++ map snd (k_res k)) -> (k_alive k = false -> k_res k = []) -> (length (k_res k) <= 1)%nat ->
  ph_ok (s_conns s') (s_phase s') -> winv s'.
Proof.
  intros [H1 H2 H3 H4] Hk E N D O P.
  assert (X : forall b k', get_conn b (s_conns s') = Some k' -> k' = k \/ get_conn b (s_conns s) = Some k').
  { intros b k' Hb. rewrite E, get_set in Hb. destruct (baddr_eqb a b); [left; congruence|now right]. }
  constructor; auto; intros b k' Hb; destruct (X b k' Hb) as [->|Y]; eauto.
Qed.
(** Freshness of the request being forwarded. *)
Definition absent (n : nat) (l : list (baddr * conn)) : Prop := forall a k, get_conn a l = Some k -> ~ In n (qsrc (k_e2n k) ++ map snd (k_res k)).
Lemma cinv_absent E s n : cinv E s -> (forall a x, ~ In (OForward n a x) (s_log s)) -> absent n (s_conns s).
Proof.
  intros C Hn a k Hk X. apply in_app_iff in X as [X|X].
  - unfold qsrc in X. apply in_flat_map in X as (x & Hx & Hs). destruct (ci_src x) as [m|] eqn:Hm; [|destruct Hs].
    destruct Hs as [->|[]]. destruct (c_item E s C _ _ x Hk Hx) as [_ Y]. rewrite Hm in Y. eapply Hn; eauto.
  - apply in_map_iff in X as ([key m] & <- & X). destruct (c_res E s C _ _ _ _ Hk X) as (_ & r & Y). eapply Hn; eauto.
Qed.
Lemma winv_fwd s id n o s' : winv s -> absent n (s_conns s) -> fwd s id n o s' -> winv s'.
Proof.
  intros H Hn F. destruct F as [c k Hc Hk Ha|c k Hc Hk Ha]; [|now apply winv_stop with s].
  pose proof (Hn _ _ Hk) as N.
  eapply (winv_put s _ (rc_addr c) _ k H Hk); [pj; reflexivity| | | |].
  - pj. rewrite qsrc_app. cbn [qsrc flat_map ci_src app]. rewrite <- app_assoc. apply NoDup_Add with (a := n) (l := qsrc (k_e2n k) ++ map snd (k_res k)).
    + apply Add_app.
    + split; auto. exact (w_nd s H _ _ Hk).
  - discriminate.
  - pj. exact (w_one s H _ _ Hk).
  - pj. destruct (is_connect o); [|exact I]. eexists. split; [apply get_set_same|]. pj. left. rewrite qsrc_app. apply in_app_iff. right. now left.
Qed.
(** A connection ends. *)
Lemma wake_find ns w p a n : p = PConn a n Waiting -> In n ns -> w <> Waiting -> wake_ph ns w p = PConn a n w.
Proof.
  intros -> Hin Hw. destruct (wake_ph_cases ns w (PConn a n Waiting)) as [X|(a' & m & X & _ & Y)].
  - exfalso. assert (Z : forall ns, In n ns -> wake_ph ns w (PConn a n Waiting) = PConn a n w).
    { clear - Hw. intros ns. induction ns as [|m r IH]; intros H; [destruct H|]. cbn. destruct (Nat.eqb_spec n m) as [->|Hm].
      - clear IH H. induction r as [|x r IH]; [reflexivity|]. cbn. destruct w; [congruence|exact IH|exact IH].
      - apply IH. destruct H; [congruence|auto]. }
    rewrite (Z ns Hin) in X. congruence.
  - injection X as <- <-. exact Y.
Qed.
Definition owned (s : sys) (a : baddr) (k : conn) : Prop := forall b n w, s_phase s = PConn b n w -> In n (map snd (k_res k)) \/ In n (qsrc (k_e2n k)) -> b = a.
Lemma cinv_owned E s a k : cinv E s -> get_conn a (s_conns s) = Some k -> owned s a k.
Proof.
  intros C Hk b n w Hp Hin. pose proof (c_ph E s C) as P. unfold phase_ok in P. rewrite Hp in P. destruct P as (_ & (c & P) & _).
  destruct Hin as [Hin|Hin].
  - apply in_map_iff in Hin as ([key m] & <- & X). destruct (c_res E s C _ _ _ _ Hk X) as (_ & r & Y). eapply (c_fw1 E s C); eauto.
  - unfold qsrc in Hin. apply in_flat_map in Hin as (x & Hx & Hs). destruct (ci_src x) as [m|] eqn:Hm; [|destruct Hs].
    destruct Hs as [->|[]]. destruct (c_item E s C _ _ x Hk Hx) as [_ Y]. rewrite Hm in Y. eapply (c_fw1 E s C); eauto.
Qed.
Lemma nodup_two {A} (l m : list A) x : NoDup (l ++ m) -> In x l -> In x m -> False.
Proof.
  induction l as [|y l IH]; intros N H Hm; [destruct H|]. cbn in N. inversion N; subst. destruct H as [->|H]; [|auto]. apply H2. apply in_app_iff. now right.
Qed.
Lemma nodup_left {A} (l m : list A) : NoDup (l ++ m) -> NoDup l.
Proof.
  induction l as [|y l IH]; intros N; [constructor|]. cbn in N. inversion N; subst. constructor; [|auto]. intros X. apply H1. apply in_app_iff. now left.
Qed.
Lemma nodup_right {A} (l m : list A) : NoDup (l ++ m) -> NoDup m.
Proof. induction l as [|y l IH]; intros N; [exact N|]. cbn in N. inversion N; subst. auto. Qed.
(** The phase after connection [a] has changed to [k'] and has woken [ns]. *)
Lemma ph_wake l a k k' ns w p : w <> Waiting -> get_conn a l = Some k -> ph_ok l p ->
  (forall b n x, p = PConn b n x -> In n ns -> b = a) ->
  (forall n, In n ns -> ~ In n (qsrc (k_e2n k')) /\ ~ In n (map snd (k_res k'))) ->
  (forall n, p = PConn a n Waiting -> In n (qsrc (k_e2n k)) \/ In n (map snd (k_res k)) -> In n ns \/ In n (qsrc (k_e2n k')) \/ In n (map snd (k_res k'))) ->
  (forall n, In n (qsrc (k_e2n k')) \/ In n (map snd (k_res k')) -> In n (qsrc (k_e2n k)) \/ In n (map snd (k_res k))) ->
  ph_ok (set_conn a k' l) (wake_ph ns w p).
Proof.
  intros Hw Hk Q Ho Hns Hold Hnew. destruct (wake_ph_cases ns w p) as [X|(b & n & -> & Hin & X)]; rewrite X.
  - destruct p as [| | | |b n x|]; auto. destruct Q as (k0 & Hk0 & Q). destruct (baddr_eqb a b) eqn:Y.
    + apply baddr_eqb_spec in Y. subst b. rewrite Hk in Hk0. injection Hk0 as <-. exists k'. split; [apply get_set_same|].
      destruct x.
      * destruct (Hold n eq_refl Q) as [Z|Z]; [|exact Z]. rewrite (wake_find ns w _ a n eq_refl Z Hw) in X. congruence.
      * split; intros Z; destruct (Hnew n); tauto.
      * split; intros Z; destruct (Hnew n); tauto.
    + exists k0. split; auto. now rewrite get_set, Y.
  - pose proof (Ho b n Waiting eq_refl Hin) as ->. exists k'. split; [apply get_set_same|]. destruct w; [congruence|apply Hns, Hin|apply Hns, Hin].
Qed.
Lemma winv_dead s s0 a k : winv s -> owned s a k -> get_conn a (s_conns s) = Some k -> s_conns s0 = s_conns s -> s_phase s0 = s_phase s -> winv (dead s0 a k).
Proof.
  intros H O Hk E P. eapply (winv_put s _ a (mk_conn (k_e2n k) (k_n2e k) [] false (k_errored k)) k H Hk).
  - pj. now rewrite E.
  - pj. cbn [map]. rewrite app_nil_r. exact (nodup_left _ _ (w_nd s H _ _ Hk)).
  - reflexivity.
  - cbn. lia.
  - pj. rewrite E, P. apply (ph_wake _ _ k); auto; [discriminate|exact (w_ph s H)|..].
    + intros b n x Hp Hin. apply (O b n x Hp). now left.
    + intros n Hin. cbn. split; [|tauto]. intros X. exact (nodup_two _ _ n (w_nd s H _ _ Hk) X Hin).
    + cbn. tauto.
    + cbn. tauto.
Qed.
(** A connection takes a command. *)
Lemma del_kconnect r : (forall p, In p r -> fst p = kconnect) -> r_del kconnect r = [].
Proof.
  induction r as [|[k n] r IH]; intros H; [reflexivity|]. unfold r_del. cbn [filter fst].
  assert (k = kconnect) as -> by (apply (H (k, n)); now left). rewrite bytes_eqb_refl. cbn [negb]. apply IH. intros p Hp. apply H. now right.
Qed.
Lemma put_item_cases s a k x q E : cinv E s -> winv s -> get_conn a (s_conns s) = Some k -> k_e2n k = x :: q ->
  (put_item x (k_res k) = (k_res k, []) /\ (qsrc [x] = [] \/ is_connect (ci_out x) = false)) \/
  exists n, qsrc [x] = [n] /\ put_item x (k_res k) = ([(kconnect, n)], map snd (k_res k)).
Proof.
  intros C W Hk Hx. destruct (c_item E s C a k x Hk) as [H1 H2]; [rewrite Hx; now left|].
  unfold put_item. rewrite H1. destruct (is_connect (ci_out x)) eqn:Y; [|left; auto].
  destruct (ci_src x) as [n|] eqn:Hs; [|left; split; auto; left; cbn; now rewrite Hs].
  right. exists n. split; [cbn; now rewrite Hs|]. destruct (ci_out x); try discriminate. cbn [okey r_put].
  change (str "CONNECT") with kconnect.
  rewrite del_kconnect by (intros [key m] Hp; apply (c_res E s C a k key m Hk Hp)).
  f_equal. pose proof (w_one s W a k Hk) as L. destruct (k_res k) as [|[key m] [|]] eqn:R; cbn in L; try lia; [reflexivity|].
  assert (key = kconnect) as -> by (apply (c_res E s C a k key m Hk); rewrite R; now left). unfold kconnect. cbn [r_find]. now rewrite bytes_eqb_refl.
Qed.

Lemma winv_popped E s s0 a k x q c : cinv E s -> winv s -> get_conn a (s_conns s) = Some k -> k_alive k = true -> k_e2n k = x :: q -> s0 = s ->
  winv (say (popped s0 a k x q) c).
Proof.
  intros C H Hk Ha Hx ->. pose proof (cinv_owned E s a k C Hk) as O. pose proof (w_nd s H _ _ Hk) as N. pose proof (w_ph s H) as Q.
  pose proof (w_one s H _ _ Hk) as L. rewrite Hx in N. change (x :: q) with ([x] ++ q) in N. rewrite qsrc_app in N.
  unfold popped. destruct (put_item_cases s a k x q E C H Hk Hx) as [[P X]|(n & X & P)]; rewrite P; cbn [fst snd wake_ph].
  - eapply (winv_put s _ a _ k H Hk); [pj; reflexivity|..].
    + pj. rewrite <- app_assoc in N. exact (nodup_right _ _ N).
    + discriminate.
    + pj. exact L.
    + pj. refine (ph_wake _ _ k _ [] Lost _ _ Hk Q _ _ _ _); [discriminate|intros ? ? ? _ []|intros ? []|..]; pj.
      * intros n0 Hp [Y|Y]; [|auto]. rewrite Hx in Y. change (x :: q) with ([x] ++ q) in Y. rewrite qsrc_app in Y. apply in_app_iff in Y as [Y|Y]; [|auto].
        exfalso. destruct X as [X|X]; [rewrite X in Y; destruct Y|].
        cbn in Y. destruct (ci_src x) as [m|] eqn:Hs; [|destruct Y]. destruct Y as [->|[]].
        destruct (c_item E s C a k x Hk) as [_ Y]; [rewrite Hx; now left|]. rewrite Hs in Y.
        pose proof (c_ph E s C) as Z. unfold phase_ok in Z. rewrite Hp in Z. destruct Z as (_ & (r & Z) & _).
        destruct (c_fw1 E s C _ _ _ _ _ Y Z) as [_ F]. rewrite F in X. discriminate.
      * intros n0 [Y|Y]; [|auto]. left. rewrite Hx. change (x :: q) with ([x] ++ q). rewrite qsrc_app. apply in_app_iff. now right.
  - rewrite X in N. cbn [app] in N. inversion N as [|? ? N1 N2]; subst.
    eapply (winv_put s _ a _ k H Hk); [pj; reflexivity|..].
    + pj. cbn [map snd]. apply NoDup_snoc; [exact (nodup_left _ _ N2)|]. intros Y. apply N1. apply in_app_iff. now left.
    + discriminate.
    + cbn. lia.
    + pj. refine (ph_wake _ _ k _ _ _ _ _ Hk Q _ _ _ _); [discriminate|..]; pj.
      * intros b m y Hp Hin. apply (O b m y Hp). now left.
      * intros m Hin. cbn [map snd]. split.
        -- intros Y. exact (nodup_two _ _ m N2 Y Hin).
        -- intros [->|[]]. apply N1. apply in_app_iff. now right.
      * intros m _ [Y|Y]; [|auto]. rewrite Hx in Y. change (x :: q) with ([x] ++ q) in Y. rewrite qsrc_app, X in Y. cbn [app] in Y.
        destruct Y as [->|Y]; [right; right; now left|auto].
      * intros m [Y|[->|[]]]; left; rewrite Hx; change (x :: q) with ([x] ++ q); rewrite qsrc_app, X; [now right|now left].
Qed.
Lemma resolve_one k key n res : (length (k_res k) <= 1)%nat -> r_resolve key (k_res k) = Some (n, res) -> map snd (k_res k) = [n] /\ res = [].
Proof.
  intros L H. unfold r_resolve in H. destruct key as [key|]; [|discriminate].
  destruct (k_res k) as [|[k1 m] [|]] eqn:R; cbn in L; try lia; [discriminate|].
  cbn [r_find] in H. destruct (bytes_eqb key k1) eqn:X; [|discriminate]. injection H as <- <-. cbn [r_del filter fst]. rewrite X. auto.
Qed.
Lemma winv_trans E s e s' : inv E s -> winv s -> trans E s e s' -> winv s'.
Proof.
  intros V H T. pose proof (v_c E s V) as C. pose proof (v_wf E s V) as W.
  assert (TK : forall h0 n o q, ch_up (s_ch s h0) = (n, o) :: q -> absent n (s_conns s)).
  { intros h0 n o q Hq. apply (cinv_absent E s n C). intros a x X.
    apply (c_fw E s C) in X as [X _]. destruct (r_up s (v_r E s V) h0 n o) as (_ & Y & _); [rewrite Hq; now left|]. contradiction. }
  destruct T;
    try (apply (winv_same s); [exact H|reflexivity|left; reflexivity]);
    try (apply (winv_same s); [exact H|reflexivity|right; pj; discriminate]);
    try (apply (winv_stop s); [exact H|reflexivity]).
  - (* start *) apply (winv_gen s); [exact H| |exact I]. intros b. pj. apply alike_new. destruct (wf_start E s W H0) as [_ ->]. reflexivity.
  - (* take *) refine (winv_fwd _ _ _ _ _ _ _ H6); [apply (winv_same s); [exact H|reflexivity|left; reflexivity]|pj; exact (TK _ _ _ _ H3)].
  - refine (winv_fwd _ _ _ _ _ _ _ H7); [apply (winv_same s); [exact H|now rewrite moved_conns|left; now rewrite moved_phase]|rewrite moved_conns; pj; exact (TK _ _ _ _ H3)].
  - (* auth *) pose proof (c_ph E s C) as P. unfold phase_ok in P. rewrite H0 in P. destruct P as (_ & _ & P & _).
    refine (winv_fwd _ _ _ _ _ _ _ H2); [apply (winv_same s); [exact H|now rewrite moved_conns|left; now rewrite moved_phase]|rewrite moved_conns; pj; exact (cinv_absent E s n C P)].
  - (* dial *) pose proof (c_ph E s C) as P. unfold phase_ok in P. rewrite H0 in P. destruct P as (_ & _ & P & _).
    pose proof (wf_dial E s W) as D. rewrite H0 in D.
    refine (winv_fwd _ _ _ _ _ _ _ H1).
    + apply (winv_gen s); [exact H| |rewrite moved_phase; pj; rewrite H0; exact I]. intros b. rewrite moved_conns. pj. now apply alike_new.
    + rewrite moved_conns. pj. intros b k Hb. rewrite get_set in Hb. destruct (baddr_eqb _ b); [injection Hb as <-; intros []|].
      exact (cinv_absent E s n C P b k Hb).
  - (* answered *) destruct H1; (apply (winv_same s); [exact H|reflexivity|right; pj; discriminate]).
  - (* pong *) apply (winv_gen s); [exact H| |pj; rewrite H0; exact I]. intros b. pj. apply (alike_put _ _ _ k); auto. pj. rewrite qsrc_app. cbn. apply app_nil_r.
  - (* ping, dead *) apply winv_stop with (put_conn s a (mk_conn (k_e2n k) q (k_res k) (k_alive k) (k_errored k))); [|reflexivity].
    apply (winv_gen s); [exact H| |pj; rewrite H0; exact I]. intros b. pj. apply (alike_put _ _ _ k); auto.
  - (* handle *) destruct H5; (apply (winv_gen s); [exact H| |pj; rewrite H0; exact I]); intros b; pj; (apply (alike_put _ _ _ k); auto).
  - (* write *) now apply (winv_popped E s).
  - (* write, panic *)
    pose proof (winv_popped E s s a k x q [] C H H0 H1 H2 eq_refl) as P.
    assert (C' : cinv E (dead (popped s a k x q) a (mk_conn q (k_n2e k) (fst (put_item x (k_res k))) true (k_errored k)))).
    { exact (v_c E _ (inv_trans E s _ _ V (T_write_panic E s a now io k x q H0 H1 H2 H3))). }
    refine (winv_dead (say (popped s a k x q) []) _ _ _ P _ _ _ _); [|pj; apply get_set_same|reflexivity|reflexivity].
    intros b n w Hp Hin. change (wake_ph (snd (put_item x (k_res k))) Lost (s_phase s) = PConn b n w) in Hp. cbn [k_e2n k_res] in Hin.
    assert (Hs : exists w', s_phase s = PConn b n w').
    { destruct (wake_ph_cases (snd (put_item x (k_res k))) Lost (s_phase s)) as [Y|(a' & m & Y & _ & Z)]; [exists w; congruence|].
      rewrite Z in Hp. injection Hp as <- <- _. eauto. }
    destruct Hs as [w' Hs]. apply (cinv_owned E s a k C H0 b n w' Hs). rewrite H2. change (x :: q) with ([x] ++ q). rewrite qsrc_app, in_app_iff.
    destruct (put_item_cases s a k x q E C H H0 H2) as [[Y _]|(m & Y & Z)].
    + rewrite Y in Hin. cbn [fst] in Hin. tauto.
    + rewrite Z in Hin. cbn [fst map snd] in Hin. rewrite Y. cbn. destruct Hin as [[->|[]]|Hin]; tauto.
  - now apply (winv_dead s); auto; apply (cinv_owned E).
  - now apply (winv_dead s); auto; apply (cinv_owned E).
  - apply (winv_gen s); [exact H| |pj].
    + intros b. pj. apply (alike_put _ _ _ k); auto.
    + apply (ph_alike (s_conns s)); [|exact (w_ph s H)]. intros b. apply (alike_put _ _ _ k); auto.
  - destruct (resolve_one k _ n res (w_one s H _ _ H0) H4) as [R ->].
    pose proof (w_nd s H _ _ H0) as N. rewrite R in N.
    eapply (winv_put s _ a _ k H H0); [pj; reflexivity|..].
    + pj. cbn [map]. rewrite app_nil_r. exact (nodup_left _ _ N).
    + discriminate.
    + cbn. lia.
    + pj. refine (ph_wake _ _ k _ _ _ _ _ H0 (w_ph s H) _ _ _ _); [discriminate|..]; pj.
      * intros b m y Hp Hin. apply (cinv_owned E s a k C H0 b m y Hp). left. now rewrite R.
      * intros m [<-|[]]. split; [|intros []]. intros Y. apply (nodup_two _ _ n N Y). now left.
      * intros m _ [Y|Y]; [auto|]. rewrite R in Y. auto.
      * intros m [Y|[]]. auto.
  - apply (winv_gen s); [exact H| |pj].
    + intros b. pj. apply (alike_put _ _ _ k); auto.
    + apply (ph_alike (s_conns s)); [|exact (w_ph s H)]. intros b. apply (alike_put _ _ _ k); auto.
  - apply (winv_dead s); auto. now apply (cinv_owned E).
Qed.
Lemma winv_init : winv sys_init.
Proof. constructor; cbn; try discriminate; auto. Qed.
Lemma winv_run E s0 h s : inv E s0 -> winv s0 -> run E s0 h = Some s -> winv s.
Proof.
  intros V H R. refine (proj2 (proj2 (run_ind E (fun _ s => inv E s /\ winv s) s0 (v_wf E s0 V) (conj V H) _ h s R))).
  intros g t e t' _ _ [V1 W1] _ T _. split; [exact (inv_trans E t e t' V1 T)|exact (winv_trans E t e t' V1 W1 T)].
Qed.
Lemma reach_winv E h s : reach E h s -> winv s.
Proof. apply winv_run; [apply inv_init|apply winv_init]. Qed.
