(** What clients get is what they are owed. *)
From Verif Require Import Bytes Errors Wire Proto Codec Address Message Client Engine SpecEngine SpecStack SpecOwed EngineFacts EngineInv EngineReq EngineEv EngineConn EngineLog EngineView.
Open Scope N_scope.
Arguments look : simpl never.
Arguments owed : simpl never.
Arguments gots : simpl never.

Lemma owed_from_app sv h v l c : answered c = false ->
  owed_from sv h v (l ++ c) = owed_from sv h v l ++ owed_from sv h (fold_left (look_step sv h) l v) c.
Proof.
  intros A. revert v. induction l as [|x l IH]; intros v; [reflexivity|].
  assert (B : answered (l ++ c) = answered l) by (destruct l; [exact A|reflexivity]).
  cbn [app owed_from fold_left]. rewrite B, IH, app_assoc. reflexivity.
Qed.
Lemma owed_app sv h l c : answered c = false -> owed sv h (l ++ c) = owed sv h l ++ owed_from sv h (look sv h l) c.
Proof. apply owed_from_app. Qed.
Lemma gots_app h a b : gots h (a ++ b) = gots h a ++ gots h b.
Proof. apply flat_map_app. Qed.
Definition calm (x : obs) : bool :=
  match x with OHandle _ _ InPing => true | OHandle _ _ _ | OGot _ _ | OAnswer _ _ _ => false | _ => true end.
Lemma calm_owed sv h v c : forallb calm c = true -> owed_from sv h v c = [].
Proof.
  revert v. induction c as [|x c IH]; intros v H; auto. cbn in H. apply andb_true_iff in H as [H1 H2].
  cbn [owed_from]. rewrite (IH _ H2). destruct x; auto. destruct i; try discriminate. cbn. destruct (v_id v); rewrite ?andb_false_r; auto.
Qed.
Lemma calm_gots h c : forallb calm c = true -> gots h c = [].
Proof. induction c as [|x c IH]; intros H; auto. cbn in H. apply andb_true_iff in H as [H1 H2]. unfold gots in *. cbn [flat_map]. rewrite (IH H2). destruct x; auto. discriminate. Qed.
Lemma calm_answered c : forallb calm c = true -> answered c = false.
Proof. destruct c as [|[] c]; auto. Qed.
Lemma calm_cancel ns : forallb calm (cancel_all ns) = true.
Proof. induction ns; auto. Qed.
Lemma calm_ends hs f : forallb calm (ends_log hs f) = true.
Proof. apply forallb_forall. intros x Hx. apply ends_log_cancel in Hx as [n ->]. reflexivity. Qed.
Lemma calm_stop s : forallb calm (stop_log s) = true.
Proof. unfold stop_log. rewrite forallb_app. cbn. now rewrite calm_cancel, calm_ends. Qed.

Definition told (sv : baddr) (h : nat) (l : list obs) : list inbound := map (fun x => fix_lookup (fst x) (snd x)) (owed sv h l).
Arguments told : simpl never.
Record oinv (E : env) (s : sys) : Prop := mk_oinv {
  o_in : forall h, exists rest, told (svc E) h (s_log s) = gots h (s_log s) ++ rest /\ (ch_client (s_ch s h) = true -> rest = ch_down (s_ch s h));
  o_new : forall h, (s_nh s <= h)%nat -> told (svc E) h (s_log s) = [] }.

Lemma oinv_quiet E s s' c :
  oinv E s -> s_log s' = s_log s ++ c -> forallb calm c = true ->
  (forall h, ch_client (s_ch s' h) = true -> ch_client (s_ch s h) = true /\ ch_down (s_ch s' h) = ch_down (s_ch s h)) ->
  (s_nh s <= s_nh s')%nat -> oinv E s'.
Proof.
  intros [W1 W2] El Hc Hch Hn.
  assert (X : forall h, told (svc E) h (s_log s') = told (svc E) h (s_log s)).
  { intros h. unfold told. rewrite El, owed_app by now apply calm_answered. now rewrite calm_owed, app_nil_r. }
  constructor.
  - intros h. rewrite X, El, gots_app, (calm_gots h c Hc), app_nil_r. destruct (W1 h) as (rest & A & B). exists rest. split; auto.
    intros Y. destruct (Hch h Y) as [Z ->]. auto.
  - intros h Hh. rewrite X. apply W2. lia.
Qed.
Lemma oinv_stop E s : oinv E s -> oinv E (stop s).
Proof.
  intros V. apply (oinv_quiet E s _ (stop_log s) V).
  - apply stop_log_eq.
  - apply calm_stop.
  - intros h. rewrite stop_eq. pj. rewrite ends_ch_at. destruct (is_in h (ended s)); pj; auto.
  - rewrite stop_eq. apply le_n.
Qed.
Lemma oinv_say E s c : oinv E s -> forallb calm c = true -> oinv E (say s c).
Proof. intros V Hc. apply (oinv_quiet E s _ c V); auto. Qed.
Lemma oinv_same E s s' : oinv E s -> s_log s' = s_log s -> s_ch s' = s_ch s -> s_nh s' = s_nh s -> oinv E s'.
Proof. intros V A B C. apply (oinv_quiet E s _ [] V); auto; [now rewrite app_nil_r|rewrite B; auto|lia]. Qed.
Lemma oinv_fwd E s id n o s' : oinv E s -> fwd s id n o s' -> oinv E s'.
Proof.
  intros V F. destruct F; [|now apply oinv_stop]. apply (oinv_quiet E s _ [OForward n (rc_addr c) o] V); auto.
Qed.
Lemma oinv_moved E s id c : oinv E s -> oinv E (moved E s id c).
Proof. intros V. apply (oinv_same E s _ V); [apply moved_log|apply moved_ch|apply moved_nh]. Qed.
Lemma oinv_taken E s h q n res dropped : oinv E s -> oinv E (taken s h q n res dropped).
Proof.
  intros V. apply (oinv_quiet E s _ (OTake n :: cancel_all dropped) V); auto.
  - apply taken_log.
  - apply calm_cancel.
  - intros x. pj. unfold set_ch. destruct (Nat.eqb_spec x h) as [->|]; cbn; auto.
Qed.
Lemma target_for a i c : i <> InPing -> addressed a (fix_lookup a i) c = baddr_eqb (rc_addr c) a && is_for (rc_id c) i.
Proof. intros H. unfold addressed. destruct i; cbn; auto; try (rewrite N.eqb_sym; auto). congruence. Qed.
Lemma told_one sv h a ser i l :
  told sv h (l ++ [OHandle a ser i]) = told sv h l ++
    (if same_home (v_home (look sv h l)) a && match v_id (look sv h l) with Some n => is_for n i | None => false end then [fix_lookup a i] else []).
Proof. unfold told. rewrite owed_app by reflexivity. cbn [owed_from answered negb andb]. rewrite app_nil_r, map_app. destruct (_ && _); reflexivity. Qed.
Lemma told_answered sv h a ser i n ser' j l : told sv h (l ++ [OHandle a ser i; OAnswer n ser' j]) = told sv h l.
Proof. unfold told. rewrite owed_app by reflexivity. cbn [owed_from answered negb andb look_step app map]. now rewrite app_nil_r. Qed.
Lemma oinv_sent E s s1 a ser i s' :
  oinv E s -> vinv E s -> hinv s -> s_phase s <> PStop -> i <> InPing -> s_log s1 = s_log s ++ [OHandle a ser i] -> s_clients s1 = s_clients s -> s_ch s1 = s_ch s ->
  s_nh s1 = s_nh s -> sent s1 a ser (fix_lookup a i) s' -> oinv E s'.
Proof.
  intros O V Hh Hp Hi El Ec Eh En S. pose proof V as [W1 W2 W3 _ _ _]. pose proof O as [O1 O2].
  destruct S as [n r Hr|Hr].
  - assert (El' : s_log (say (with_res s1 r) [OAnswer n ser (fix_lookup a i)]) = s_log s ++ [OHandle a ser i; OAnswer n ser (fix_lookup a i)]).
    { pj. rewrite El, <- app_assoc. reflexivity. }
    constructor; rewrite El'.
    + intros h. rewrite told_answered, gots_app. unfold gots at 2. cbn [flat_map app]. rewrite app_nil_r. pj. rewrite Eh. apply O1.
    + intros h. pj. rewrite En, told_answered. apply O2.
  - set (hs := map rc_h (filter (addressed a (fix_lookup a i)) (s_clients s))).
    assert (Hnd : NoDup hs).
    { unfold hs. pose proof (NoDup_app_l _ _ (h_nodup s Hh)) as N. clear -N. induction (s_clients s) as [|c l IH]; cbn in *; [constructor|].
      inversion N as [|? ? N1 N2]; subst. destruct (addressed a (fix_lookup a i) c); auto. cbn. constructor; auto.
      intros X. apply N1. apply in_map_iff in X as (y & <- & Y). apply filter_In in Y as [Y _]. now apply in_map. }
    assert (Hd : forall h, is_in h hs = same_home (v_home (look (svc E) h (s_log s))) a && match v_id (look (svc E) h (s_log s)) with Some n => is_for n i | None => false end).
    { intros h. unfold hs. apply eq_iff_eq_true. rewrite is_in_spec, in_map_iff. split.
      - intros (c & <- & X). apply filter_In in X as [X Y]. rewrite (W1 c X), (W2 Hp c X). rewrite target_for in Y by auto. exact Y.
      - intros X. destruct (in_dec Nat.eq_dec h (map rc_h (s_clients s))) as [Y|Y].
        + apply in_map_iff in Y as (c & <- & Y). rewrite (W1 c Y), (W2 Hp c Y) in X. exists c. split; auto. apply filter_In. rewrite target_for by auto. auto.
        + rewrite (W3 h Y) in X. now rewrite andb_false_r in X. }
    unfold delivered. rewrite Ec, Eh. fold hs. constructor; pj; rewrite El.
    + intros h. destruct (O1 h) as (rest & A & B). rewrite told_one, <- Hd, gots_app. unfold gots at 2. cbn [flat_map app]. rewrite app_nil_r.
      rewrite push_ch_down by exact Hnd. destruct (push_ch_meta (fix_lookup a i) hs (s_ch s) h) as (_ & _ & -> & _).
      destruct (is_in h hs); cbn.
      * exists (rest ++ [fix_lookup a i]). split; [now rewrite A, app_assoc|]. intros X. rewrite X. now rewrite (B X).
      * exists rest. rewrite !app_nil_r. auto.
    + intros h X. rewrite En in X. rewrite told_one, <- Hd, O2 by auto. destruct (is_in h hs) eqn:Y; auto.
      rewrite Hd in Y. rewrite W3 in Y; [now rewrite andb_false_r in Y|]. intros Z.
      assert (h < s_nh s)%nat by (apply (h_lt s Hh); apply in_app_iff; auto). lia.
Qed.
Lemma oinv_trans E s e s' : inv E s -> vinv E s -> oinv E s -> trans E s e s' -> oinv E s'.
Proof.
  intros I V O T. pose proof I as [W Hh Hf R C A S].
  destruct T; repeat match goal with |- oinv _ (stop _) => apply oinv_stop end; try exact O;
    try (apply oinv_say; [exact O|reflexivity]); try (apply (oinv_same E s _ O); reflexivity).
  Ltac qo s O c := apply (oinv_quiet _ s _ c O); [try reflexivity; symmetry; apply app_nil_r|try reflexivity|try (intros ? X; split; [exact X|reflexivity])|try apply le_n].
  Ltac cho := pj; let z := fresh "z" in intros z; unfold set_ch; match goal with |- context [(z =? ?y)%nat] => destruct (Nat.eqb_spec z y) end; [subst z; cbn; try tauto; try discriminate|auto].
  - (* a new channel pair *)
    pose proof O as [O1 O2]. constructor; pj; [|intros x Hx; apply O2; lia].
    intros x. unfold set_ch. destruct (Nat.eqb_spec x (s_nh s)) as [->|Hn]; [|apply O1]. cbn. exists [].
    destruct (O1 (s_nh s)) as (rest & X & _). rewrite (O2 (s_nh s) (le_n _)) in *. symmetry in X. apply app_eq_nil in X as [-> _]. auto.
  - qo s O [ORegErr (s_nh s)]. cbn. lia.
  - qo s O [OConfirm h]. cho.
  - qo s O [ORegErr h]. cho.
  - qo s O (@nil obs). cho.
  - qo s O (ends_log (regq_handles s) (s_ch s)); [apply calm_ends|]. intros x. pj. rewrite ends_ch_at. destruct (is_in x _); cbn; auto.
  - qo s O [OIssue h (s_nreq s) o]. cho.
  - (* a client receives *)
    pose proof O as [O1 O2].
    assert (X : forall x, told (svc E) x (s_log s ++ [OGot h i]) = told (svc E) x (s_log s)).
    { intros x. unfold told. rewrite owed_app by reflexivity. cbn. now rewrite app_nil_r. }
    constructor; pj.
    + intros x. rewrite X, gots_app. destruct (O1 x) as (rest & Y & Z). unfold set_ch. rewrite (Nat.eqb_sym x h).
      unfold gots at 2. cbn [flat_map]. destruct (Nat.eqb_spec h x) as [->|Hn]; cbn.
      * specialize (Z H). rewrite H1 in Z. exists q. split; auto. rewrite Y, Z, <- app_assoc. reflexivity.
      * exists rest. rewrite app_nil_r. auto.
    + intros x. rewrite X. apply O2.
  - qo s O (if ch_engine (s_ch s h) then [] else cancel_all (queued_requests (s_ch s h))).
    + destruct (ch_engine (s_ch s h)); [reflexivity|apply calm_cancel].
    + cho.
  - qo s O [ODial (broker_address (e_cfg E)) true].
  - refine (oinv_fwd E _ _ _ _ _ _ H5). now apply oinv_taken.
  - apply (oinv_same E (taken s h q n res dropped)); try reflexivity. now apply oinv_taken.
  - apply (oinv_same E (taken s h q n res dropped)); try reflexivity. now apply oinv_taken.
  - refine (oinv_fwd E _ _ _ _ _ _ H6). apply oinv_moved. now apply oinv_taken.
  - qo s O [OAuthed n (Ok d)].
  - refine (oinv_fwd E _ _ _ _ _ _ H1). apply oinv_moved. apply oinv_say; auto.
  - refine (oinv_fwd E _ _ _ _ _ _ H0). apply oinv_moved. apply (oinv_same E (say s [ODial (caddr E c) true])); try reflexivity. apply oinv_say; auto.
  - assert (i = InConnected) by (pose proof (c_ph E s C) as P; unfold phase_ok in P; rewrite H in P; destruct P as (_ & _ & P); eauto).
    subst i. refine (oinv_sent E s _ a ser InConnected s' O V Hh _ _ _ _ _ _ H0); try reflexivity; congruence.
  - qo s O [OHandle a ser InPing; OPonged a].
  - qo s O [OHandle a ser InPing].
  - refine (oinv_sent E s _ a ser i s' O V Hh _ _ _ _ _ _ H4); try reflexivity; pj; congruence.
  - qo s O [OReg h id].
  - qo s O [OReg h id].
  - eapply (oinv_quiet E s _ [_] O); try reflexivity; auto.
  - qo s O [OArrive a (s_narr s) i].
  - qo s O [OArrive a (s_narr s) i].
  - qo s O [OArrive a (s_narr s) i].
Qed.
Lemma oinv_init E : oinv E sys_init.
Proof. constructor; cbn; auto. intros h. exists []. auto. Qed.
Lemma reach_owed E h s : reach E h s -> newids h <= two64 -> oinv E s.
Proof.
  intros H. unfold reach in H.
  assert (G : wf E s /\ (inv E s /\ idinv (newids h) s /\ (newids h <= two64 -> vinv E s) /\ (newids h <= two64 -> oinv E s))).
  { refine (run_ind E (fun h s => inv E s /\ idinv (newids h) s /\ (newids h <= two64 -> vinv E s) /\ (newids h <= two64 -> oinv E s)) sys_init (wf_init E) _ _ h s H).
    - split; [apply inv_init|]. split; [apply (reach_ids E []); reflexivity|]. split; intros _; [apply vinv_init|apply oinv_init].
    - intros h0 s0 e s1 _ W (I & D & V & O) _ T _. split; [eapply inv_trans; eauto|]. split; [rewrite newids_snoc; eapply idinv_trans; eauto|].
      assert (Hle : newids (h0 ++ [e]) <= two64 -> newids h0 <= two64) by (pose proof (newids_prefix h0 e); lia).
      split; intros Hn.
      + eapply vinv_trans; eauto. apply (NoDup_app_l _ (map (fun x => snd (fst x)) (s_regq s0) ++ s_minted s0)). apply D. auto.
      + eapply oinv_trans; eauto. }
  destruct G as (_ & _ & _ & _ & G). exact G.
Qed.
