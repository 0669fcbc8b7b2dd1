(** The clients as the log shows them. *)
From Verif Require Import Bytes Errors Wire Proto Codec Address Message Client Engine SpecEngine EngineFacts EngineInv EngineReq EngineEv EngineConn EngineLog PropMessage.
Open Scope N_scope.
Arguments look : simpl never.

Definition msgs (l : list inbound) : list delivery := flat_map (fun i => match i with InMessage d => [d] | _ => [] end) l.
Lemma msgs_app a b : msgs (a ++ b) = msgs a ++ msgs b.
Proof. apply flat_map_app. Qed.
Definition svc (E : env) : baddr := broker_address (e_cfg E).
Lemma look_app E h l c : look (svc E) h (l ++ c) = fold_left (look_step (svc E) h) c (look (svc E) h l).
Proof. apply fold_left_app. Qed.
Lemma look_snoc E h l x : look (svc E) h (l ++ [x]) = look_step (svc E) h (look (svc E) h l) x.
Proof. apply look_app. Qed.
Lemma look_mine E h l n : In n (v_mine (look (svc E) h l)) <-> exists o, In (OIssue h n o) l.
Proof.
  induction l as [|x l IH] using rev_ind; [unfold look; cbn; split; [tauto|intros [? []]]|].
  rewrite look_snoc.
  assert (G : v_mine (look_step (svc E) h (look (svc E) h l) x) = match x with OIssue h' m _ => if (h' =? h)%nat then m :: v_mine (look (svc E) h l) else v_mine (look (svc E) h l) | _ => v_mine (look (svc E) h l) end).
  { destruct x as [h' ? ?| | | | |? ? []| | | |? ? []| | |h' []| |h' ?| | | |]; cbn; auto; try (destruct (h' =? h)%nat; auto);
      try (destruct (in_nat _ _); auto); try (destruct (same_home _ _ && _); auto). }
  rewrite G.
  assert (X : (exists o, In (OIssue h n o) (l ++ [x])) <-> (exists o, In (OIssue h n o) l) \/ exists o, x = OIssue h n o).
  { split.
    - intros [o H]. apply in_app_iff in H as [H|[H|[]]]; eauto.
    - intros [[o H]|[o ->]]; exists o; apply in_app_iff; auto. right. now left. }
  rewrite X, <- IH. destruct x; try (split; [auto|intros [?|[? ?]]; [auto|discriminate]]).
  destruct (Nat.eqb_spec h0 h) as [->|Hn]; cbn.
  - split; [intros [->|H]; eauto|]. intros [H|[o' H]]; [auto|]. injection H as <- <-. auto.
  - split; auto. intros [H|[o' H]]; auto. injection H as <- <- <-. congruence.
Qed.
(** Entries that change no view but the requests. *)
Definition dull (x : obs) : bool :=
  match x with OReg _ _ | OForward _ _ (OConnect _) | OHandle _ _ (InMessage _) | OGot _ (InMessage _) => false | _ => true end.
Definition same_view (v w : view) : Prop := v_id v = v_id w /\ v_home v = v_home w /\ v_inbox v = v_inbox w /\ v_got v = v_got w.
Lemma look_dull E h l c : forallb dull c = true -> same_view (look (svc E) h (l ++ c)) (look (svc E) h l).
Proof.
  intros Hc. induction c as [|x c IH] using rev_ind; [rewrite app_nil_r; repeat split|].
  rewrite forallb_app in Hc. apply andb_true_iff in Hc as [Hc Hx]. cbn in Hx. rewrite andb_true_r in Hx.
  specialize (IH Hc). rewrite app_assoc, look_snoc.
  assert (G : same_view (look_step (svc E) h (look (svc E) h (l ++ c)) x) (look (svc E) h (l ++ c))).
  { destruct x as [h' ? ?| | | | |? ? []| | | |? ? []| | |h' []| |h' ?| | | |]; try discriminate; cbn; try (repeat split; fail); try (destruct (h' =? h)%nat; repeat split). }
  destruct G as (G1 & G2 & G3 & G4), IH as (I1 & I2 & I3 & I4). repeat split; congruence.
Qed.
Lemma dull_cancel ns : forallb dull (cancel_all ns) = true.
Proof. induction ns; auto. Qed.
Lemma dull_ends hs f : forallb dull (ends_log hs f) = true.
Proof. apply forallb_forall. intros x Hx. apply ends_log_cancel in Hx as [n ->]. reflexivity. Qed.
Lemma dull_stop s : forallb dull (stop_log s) = true.
Proof. unfold stop_log. rewrite forallb_app. cbn. now rewrite dull_cancel, dull_ends. Qed.

Definition cards (s : sys) : list (nat * N * baddr) := map (fun c => (rc_h c, rc_id c, rc_addr c)) (s_clients s).
Definition owner_ok (s : sys) : Prop :=
  match s_phase s with
  | PAuth id n _ | PDial id n _ => exists c o, In c (s_clients s) /\ rc_id c = id /\ In (OIssue (rc_h c) n o) (s_log s)
  | _ => True
  end.
Record vinv (E : env) (s : sys) : Prop := mk_vinv {
  w_id : forall c, In c (s_clients s) -> v_id (look (svc E) (rc_h c) (s_log s)) = Some (rc_id c);
  w_home : s_phase s <> PStop -> forall c, In c (s_clients s) -> v_home (look (svc E) (rc_h c) (s_log s)) = Some (rc_addr c);
  w_no : forall h, ~ In h (map rc_h (s_clients s)) -> v_id (look (svc E) h (s_log s)) = None;
  w_ph : owner_ok s;
  w_in : forall h, exists rest, v_inbox (look (svc E) h (s_log s)) = v_got (look (svc E) h (s_log s)) ++ rest /\
      (ch_client (s_ch s h) = true -> rest = msgs (ch_down (s_ch s h)));
  w_new : forall h, (s_nh s <= h)%nat -> v_inbox (look (svc E) h (s_log s)) = [] }.

Lemma vinv_dull E s s' c :
  vinv E s -> s_log s' = s_log s ++ c -> forallb dull c = true ->
  (forall x, In x (cards s') -> (s_phase s' <> PStop -> In x (cards s)) /\ In (fst x) (map fst (cards s))) ->
  (forall x, In x (map rc_h (s_clients s)) -> In x (map rc_h (s_clients s'))) ->
  (s_phase s = PStop -> s_phase s' = PStop) ->
  (forall h, ch_client (s_ch s' h) = true -> ch_client (s_ch s h) = true /\ msgs (ch_down (s_ch s' h)) = msgs (ch_down (s_ch s h))) ->
  owner_ok s' -> (s_nh s <= s_nh s')%nat -> vinv E s'.
Proof.
  intros [W1 W2 W3 W4 W5 W6] El Hc Hcl Hr Hp Hch Ho Hnh.
  assert (V : forall h, same_view (look (svc E) h (s_log s')) (look (svc E) h (s_log s))) by (intros h; rewrite El; now apply look_dull).
  assert (Hin : forall c, In c (s_clients s') -> (s_phase s' <> PStop -> exists c0, In c0 (s_clients s) /\ rc_h c0 = rc_h c /\ rc_addr c0 = rc_addr c) /\
             exists c0, In c0 (s_clients s) /\ rc_h c0 = rc_h c /\ rc_id c0 = rc_id c).
  { intros c0 H0. destruct (Hcl (rc_h c0, rc_id c0, rc_addr c0)) as [A B]; [apply in_map_iff; exists c0; auto|]. split.
    - intros X. apply A in X. apply in_map_iff in X as (c1 & E1 & X). injection E1 as Y1 Y2 Y3. exists c1; auto.
    - unfold cards in B. rewrite map_map in B. apply in_map_iff in B as (c1 & E1 & X). cbn in E1. injection E1 as Y1 Y2. exists c1; auto. }
  constructor; auto.
  - intros c0 H0. destruct (Hin c0 H0) as [_ (c1 & A & B & D)]. rewrite (proj1 (V (rc_h c0))), <- B, <- D. auto.
  - intros X c0 H0. destruct (Hin c0 H0) as [A _]. destruct (A X) as (c1 & A1 & B & D). destruct (V (rc_h c0)) as (_ & -> & _).
    rewrite <- B, <- D. auto.
  - intros h X. rewrite (proj1 (V h)). auto.
  - intros h. destruct (V h) as (_ & _ & -> & ->). destruct (W5 h) as (rest & A & B). exists rest. split; auto.
    intros X. destruct (Hch h X) as [Y ->]. auto.
  - intros h X. destruct (V h) as (_ & _ & -> & _). apply W6. lia.
Qed.
Lemma cards_same s s' : cards s' = cards s ->
  forall x, In x (cards s') -> (s_phase s' <> PStop -> In x (cards s)) /\ In (fst x) (map fst (cards s)).
Proof. intros ->. intros x H. split; auto. now apply in_map. Qed.
Lemma cards_h s s' : cards s' = cards s -> forall x, In x (map rc_h (s_clients s)) -> In x (map rc_h (s_clients s')).
Proof.
  intros H. apply (f_equal (map (fun y => fst (fst y)))) in H. unfold cards in H. rewrite !map_map in H. cbn in H.
  intros x. change (map rc_h (s_clients s')) with (map (fun c => rc_h c) (s_clients s')). rewrite H. auto.
Qed.
Lemma vinv_quiet E s s' c :
  vinv E s -> s_log s' = s_log s ++ c -> forallb dull c = true -> cards s' = cards s ->
  (s_phase s = PStop -> s_phase s' = PStop) ->
  (forall h, ch_client (s_ch s' h) = true -> ch_client (s_ch s h) = true /\ msgs (ch_down (s_ch s' h)) = msgs (ch_down (s_ch s h))) ->
  owner_ok s' -> (s_nh s <= s_nh s')%nat -> vinv E s'.
Proof. intros V El Hc Hk Hp Hch Ho Hnh. apply (vinv_dull E s s' c); auto; [now apply cards_same|now apply cards_h]. Qed.
Lemma owner_same s s' c : owner_ok s -> s_clients s' = s_clients s -> s_log s' = s_log s ++ c -> s_phase s' = s_phase s -> owner_ok s'.
Proof.
  intros H Hc El Hp. unfold owner_ok in *. rewrite Hp, Hc, El.
  destruct (s_phase s); auto; destruct H as (cc & oo & A & B & D); exists cc, oo; split; auto; split; auto; apply in_app_iff; auto.
Qed.
Lemma owner_wake s s' c ns w : owner_ok s -> s_clients s' = s_clients s -> s_log s' = s_log s ++ c -> s_phase s' = wake_ph ns w (s_phase s) -> owner_ok s'.
Proof.
  intros H Hc El Hp. destruct (wake_ph_cases ns w (s_phase s)) as [X|(a & m & X & _ & Y)].
  - apply (owner_same s s' c); auto. congruence.
  - unfold owner_ok. rewrite Hp, Y. exact I.
Qed.
Lemma vinv_stop E s : vinv E s -> vinv E (stop s).
Proof.
  intros V. apply (vinv_quiet E s _ (stop_log s) V).
  - apply stop_log_eq.
  - apply dull_stop.
  - rewrite stop_eq. reflexivity.
  - rewrite stop_eq. reflexivity.
  - intros h. rewrite stop_eq. pj. rewrite ends_ch_at. destruct (is_in h (ended s)); pj; auto.
  - rewrite stop_eq. exact I.
  - rewrite stop_eq. apply le_n.
Qed.
(** Stopping after the client was moved. *)
Lemma vinv_stop_moved E s id c : vinv E s -> vinv E (stop (moved E s id c)).
Proof.
  intros V. apply (vinv_dull E s _ (stop_log (moved E s id c)) V).
  - rewrite stop_log_eq, moved_log. reflexivity.
  - apply dull_stop.
  - rewrite stop_eq. pj. intros x Hx. split; [congruence|]. unfold cards in *. cbn in Hx. apply (in_map fst) in Hx. rewrite map_map in Hx. rewrite map_map. cbn in *.
    rewrite moved_ids in Hx. exact Hx.
  - rewrite stop_eq. cbn [s_clients]. rewrite moved_h. auto.
  - rewrite stop_eq. reflexivity.
  - intros h. rewrite stop_eq. pj. rewrite ends_ch_at, moved_ch. destruct (is_in h (ended _)); pj; auto.
  - rewrite stop_eq. exact I.
  - rewrite stop_eq. cbn. rewrite moved_nh. apply le_n.
Qed.
Lemma nodup_id s c c' : NoDup (map rc_id (s_clients s)) -> In c (s_clients s) -> In c' (s_clients s) -> rc_id c = rc_id c' -> c = c'.
Proof.
  induction (s_clients s) as [|x l IH]; cbn; [tauto|]. intros H. inversion H as [|? ? H1 H2]; subst.
  intros [->|A] [->|B] E; auto; exfalso; apply H1; [rewrite E|rewrite <- E]; now apply in_map.
Qed.
Lemma nodup_h s c c' : hinv s -> In c (s_clients s) -> In c' (s_clients s) -> rc_h c = rc_h c' -> c = c'.
Proof.
  intros Hh. pose proof (NoDup_app_l _ _ (h_nodup s Hh)) as H. revert H.
  induction (s_clients s) as [|x l IH]; cbn; [tauto|]. intros H. inversion H as [|? ? H1 H2]; subst.
  intros [->|A] [->|B] E; auto; exfalso; apply H1; [rewrite E|rewrite <- E]; now apply in_map.
Qed.
(** A connect is forwarded (after the client was possibly moved). *)
Lemma vinv_connect E s s0 id n c s' :
  vinv E s0 -> s_log s = s_log s0 -> s_clients s = s_clients (moved E s0 id c) -> s_ch s = s_ch s0 -> s_nh s = s_nh s0 ->
  hinv s0 -> s_phase s0 <> PStop -> NoDup (map rc_id (s_clients s0)) ->
  (exists x o, In x (s_clients s0) /\ rc_id x = id /\ In (OIssue (rc_h x) n o) (s_log s0) /\ forall h' o', In (OIssue h' n o') (s_log s0) -> h' = rc_h x) ->
  fwd s id n (OConnect c) s' -> vinv E s'.
Proof.
  intros V El Ec Eh En Hh Hp Hnd (x & o & X1 & X2 & X3 & X4) F.
  pose proof V as [W1 W2 W3 W4 W5 W6].
  assert (Hids : forall y, In y (s_clients s) -> exists z, In z (s_clients s0) /\ rc_h z = rc_h y /\ rc_id z = rc_id y /\
            (rc_id y <> id -> rc_addr z = rc_addr y)).
  { intros y Hy. rewrite Ec in Hy. unfold moved in Hy. destruct (baddr_eqb _ _); [exists y; auto|]. cbn in Hy.
    apply in_map_iff in Hy as (z & <- & Hz). exists z. destruct (N.eqb_spec (rc_id z) id); cbn; auto. split; auto. split; auto. split; auto. congruence. }
  assert (Hhs : map rc_h (s_clients s) = map rc_h (s_clients s0)) by (rewrite Ec; apply moved_h).
  assert (Hnd' : NoDup (map rc_id (s_clients s))) by (rewrite Ec, moved_id; exact Hnd).
  destruct F as [c0 k G1 G2 G3|c0 k G1 G2 G3].
  - apply get_client_in in G1 as [G1 G4].
    destruct (Hids c0 G1) as (z & Z1 & Z2 & Z3 & _). assert (z = x) by (apply (nodup_id s0); auto; congruence). subst z.
    assert (L : forall h, look (svc E) h (s_log s0 ++ [OForward n (rc_addr c0) (OConnect c)]) =
               if (h =? rc_h c0)%nat then mk_view (v_mine (look (svc E) h (s_log s0))) (v_id (look (svc E) h (s_log s0))) (Some (rc_addr c0)) (v_inbox (look (svc E) h (s_log s0))) (v_got (look (svc E) h (s_log s0)))
               else look (svc E) h (s_log s0)).
    { intros h. rewrite look_snoc. cbn [look_step].
      destruct (in_nat n (v_mine (look (svc E) h (s_log s0)))) eqn:M.
      - apply is_in_spec, look_mine in M as [o' M]. apply X4 in M as ->. rewrite Z2, Nat.eqb_refl. reflexivity.
      - destruct (Nat.eqb_spec h (rc_h c0)) as [->|]; auto. exfalso.
        assert (in_nat n (v_mine (look (svc E) (rc_h c0) (s_log s0))) = true); [|congruence].
        apply is_in_spec, look_mine. exists o. now rewrite <- Z2. }
    constructor; pj; rewrite ?El, ?Eh; auto.
    + intros y Hy. rewrite L. destruct (Hids y Hy) as (z & A1 & A2 & A3 & A4). rewrite <- A2, <- A3.
      destruct (rc_h z =? rc_h c0)%nat; cbn; auto.
    + intros _ y Hy. rewrite L. destruct (Hids y Hy) as (z & A1 & A2 & A3 & A4).
      destruct (Nat.eqb_spec (rc_h y) (rc_h c0)) as [E1|Hn]; cbn.
      * assert (z = x) by (apply (nodup_h s0 z x Hh); auto; congruence). subst z.
        assert (y = c0) by (apply (nodup_id s); auto; congruence). now subst.
      * rewrite <- A2. rewrite W2; auto. f_equal. apply A4. intros E1. assert (z = x) by (apply (nodup_id s0); auto; congruence).
        subst z. congruence.
    + intros h Hn. rewrite L. rewrite Hhs in Hn. destruct (h =? rc_h c0)%nat; cbn; auto.
    + intros h. rewrite L. destruct (W5 h) as (rest & A & B). exists rest. destruct (h =? rc_h c0)%nat; cbn; auto.
    + intros h Hn. rewrite En in Hn. rewrite L. destruct (h =? rc_h c0)%nat; cbn; auto.
  - apply (vinv_dull E s0 _ (stop_log s) V).
    + now rewrite stop_log_eq, El.
    + apply dull_stop.
    + rewrite stop_eq. pj. intros y Hy. split; [congruence|]. unfold cards in *. cbn in Hy. apply (in_map fst) in Hy. rewrite map_map in Hy. rewrite map_map. cbn in *.
      rewrite Ec, moved_ids in Hy. exact Hy.
    + rewrite stop_eq. cbn [s_clients]. rewrite Hhs. auto.
    + rewrite stop_eq. reflexivity.
    + intros h. rewrite stop_eq. pj. rewrite ends_ch_at, Eh. destruct (is_in h (ended s)); cbn; auto.
    + rewrite stop_eq. exact Logic.I.
    + rewrite stop_eq. cbn. rewrite En. apply le_n.
Qed.

Lemma vinv_fwd E s id n o s' : vinv E s -> s_phase s <> PStop -> is_connect o = false -> fwd s id n o s' -> vinv E s'.
Proof.
  intros V Hp Ho F. destruct F; [|now apply vinv_stop].
  apply (vinv_quiet E s _ [OForward n (rc_addr c) o] V); auto.
  - destruct o; try reflexivity. discriminate.
  - intros X. congruence.
  - rewrite Ho. exact I.
Qed.
Lemma vinv_taken E s h q n res dropped : vinv E s -> s_phase s <> PStop -> owner_ok (taken s h q n res dropped) -> vinv E (taken s h q n res dropped).
Proof.
  intros V Hp Ho. apply (vinv_quiet E s _ (OTake n :: cancel_all dropped) V); auto.
  - apply taken_log.
  - apply dull_cancel.
  - intros x. pj. unfold set_ch. destruct (Nat.eqb_spec x h) as [->|]; cbn; auto.
Qed.
Lemma vinv_reg E s s1 h id topic q :
  vinv E s -> hinv s -> s_regq s = (h, id, topic) :: q -> s_log s1 = s_log s ++ [OReg h id] ->
  s_clients s1 = s_clients s ++ [mk_rclient h id topic (svc E)] -> s_ch s1 = s_ch s -> s_phase s = PRun -> s_phase s1 = PRun -> s_nh s1 = s_nh s ->
  vinv E s1.
Proof.
  intros V Hh Hq El Ec Eh Hp Hp1 En. pose proof V as [W1 W2 W3 W4 W5 W6].
  assert (Hnew : ~ In h (map rc_h (s_clients s))).
  { intros X. apply (NoDup_app_not _ _ h (h_nodup s Hh) X). unfold regq_handles. rewrite Hq. now left. }
  assert (L : forall x, look (svc E) x (s_log s1) = if (h =? x)%nat then mk_view (v_mine (look (svc E) x (s_log s))) (Some id) (Some (svc E)) (v_inbox (look (svc E) x (s_log s))) (v_got (look (svc E) x (s_log s))) else look (svc E) x (s_log s)).
  { intros x. rewrite El, look_snoc. reflexivity. }
  assert (D : forall c, In c (s_clients s1) -> (In c (s_clients s) /\ (h =? rc_h c)%nat = false) \/ c = mk_rclient h id topic (svc E)).
  { intros c X. rewrite Ec in X. apply in_app_iff in X as [X|[X|[]]]; auto. left. split; auto.
    destruct (Nat.eqb_spec h (rc_h c)) as [->|]; auto. exfalso. apply Hnew. now apply in_map. }
  constructor.
  - intros c X. rewrite L. destruct (D c X) as [[Y Z]|Y]; [rewrite Z; auto|]. subst c. cbn. rewrite Nat.eqb_refl. reflexivity.
  - intros _ c X. rewrite L. destruct (D c X) as [[Y Z]|Y]; [rewrite Z; apply W2; congruence|]. subst c. cbn. rewrite Nat.eqb_refl. reflexivity.
  - intros x X. rewrite L. rewrite Ec, map_app, in_app_iff in X. cbn in X.
    destruct (Nat.eqb_spec h x) as [->|Hn]; [exfalso; apply X; auto|]. apply W3. tauto.
  - unfold owner_ok. now rewrite Hp1.
  - intros x. rewrite L, Eh. destruct (W5 x) as (rest & A & B). exists rest. destruct (h =? x)%nat; cbn; auto.
  - intros x X. rewrite L. rewrite En in X. destruct (h =? x)%nat; cbn; auto.
Qed.
(** Delivery. *)
Lemma vinv_sent E s s1 a ser i s' :
  vinv E s -> hinv s -> rinv s -> s_phase s <> PStop -> s_log s1 = s_log s ++ [OHandle a ser i] -> s_clients s1 = s_clients s -> s_ch s1 = s_ch s ->
  s_res s1 = s_res s -> s_phase s1 = PRun -> s_nh s1 = s_nh s -> sent s1 a ser (fix_lookup a i) s' -> vinv E s'.
Proof.
  intros V Hh R Hp El Ec Eh Er Hp1 En S. pose proof V as [W1 W2 W3 W4 W5 W6].
  destruct (match i with InMessage _ => true | _ => false end) eqn:Hi.
  - destruct i; try discriminate.  cbn [fix_lookup] in S.
    destruct S as [n r Hr|Hr].
    { exfalso. unfold r_resolve in Hr. destruct (ikey (InMessage d)) as [k|] eqn:K; [|discriminate].
      rewrite Er in Hr. destruct (r_find k (s_res s)) as [m|] eqn:F; [|discriminate]. apply (waiting_find s m k R) in F as (o & _ & _ & F & _).
      exact (C22_deliveries_never_resolve o d k F K). }
    assert (Hnd : NoDup (map rc_h (filter (addressed a (InMessage d)) (s_clients s)))).
    { pose proof (NoDup_app_l _ _ (h_nodup s Hh)) as N. clear -N. induction (s_clients s) as [|c l IH]; cbn in *; [constructor|].
      inversion N as [|? ? N1 N2]; subst. destruct (addressed a (InMessage d) c); auto. cbn. constructor; auto.
      intros X. apply N1. apply in_map_iff in X as (y & <- & Y). apply filter_In in Y as [Y _]. now apply in_map. }
    assert (Hd : forall h, is_in h (map rc_h (filter (addressed a (InMessage d)) (s_clients s))) =
              same_home (v_home (look (svc E) h (s_log s))) a && same_id (v_id (look (svc E) h (s_log s))) (d_cid d)).
    { intros h. apply eq_iff_eq_true. rewrite is_in_spec, in_map_iff. split.
      - intros (c & <- & X). apply filter_In in X as [X Y]. rewrite (W1 c X), (W2 Hp c X). exact Y.
      - intros X. destruct (in_dec Nat.eq_dec h (map rc_h (s_clients s))) as [Y|Y].
        + apply in_map_iff in Y as (c & <- & Y). rewrite (W1 c Y), (W2 Hp c Y) in X. exists c. split; auto. apply filter_In. auto.
        + rewrite (W3 h Y) in X. now rewrite andb_false_r in X. }
    unfold delivered. rewrite Ec, Eh.
    set (L := fun h => look (svc E) h (s_log s)).
    assert (HL : forall h, look (svc E) h (s_log s1) = if is_in h (map rc_h (filter (addressed a (InMessage d)) (s_clients s)))
                  then mk_view (v_mine (L h)) (v_id (L h)) (v_home (L h)) (v_inbox (L h) ++ [d]) (v_got (L h)) else L h).
    { intros h. rewrite El, look_snoc, Hd. reflexivity. }
    constructor; pj.
    + intros c X. rewrite Ec in X. rewrite HL. destruct (is_in _ _); cbn; apply W1; auto.
    + intros _ c X. rewrite Ec in X. rewrite HL. destruct (is_in _ _); cbn; apply W2; auto.
    + intros h X. rewrite Ec in X. rewrite HL. destruct (is_in _ _); cbn; apply W3; auto.
    + unfold owner_ok. pj. now rewrite Hp1.
    + intros h. destruct (W5 h) as (rest & A & B). rewrite HL, push_ch_down by exact Hnd.
      destruct (push_ch_meta (InMessage d) (map rc_h (filter (addressed a (InMessage d)) (s_clients s))) (s_ch s) h) as (_ & _ & -> & _).
      destruct (is_in _ _); cbn.
      * exists (rest ++ [d]). split; [unfold L; now rewrite A, app_assoc|]. intros X. rewrite X, msgs_app. cbn. now rewrite (B X).
      * exists rest. rewrite app_nil_r. auto.
    + intros h X. rewrite En in X. rewrite HL. destruct (is_in h _) eqn:Y; cbn; [|now apply W6].
      rewrite Hd in Y. rewrite W3 in Y; [now rewrite andb_false_r in Y|]. intros Z.
      assert (h < s_nh s)%nat by (apply (h_lt s Hh); apply in_app_iff; auto). lia.
  - assert (Hm : msgs [fix_lookup a i] = []) by (destruct i; try discriminate; reflexivity).
    assert (Hx : dull (OHandle a ser i) = true) by (destruct i; try discriminate; reflexivity).
    destruct S as [n r Hr|Hr].
    + apply (vinv_quiet E s _ [OHandle a ser i; OAnswer n ser (fix_lookup a i)] V); pj.
      * rewrite El, <- app_assoc. reflexivity.
      * cbn in *. now rewrite Hx.
      * unfold cards. pj. now rewrite Ec.
      * congruence.
      * rewrite Eh. auto.
      * unfold owner_ok. pj. now rewrite Hp1.
      * now rewrite En.
    + apply (vinv_quiet E s _ [OHandle a ser i] V); pj.
      * exact El.
      * cbn in *. now rewrite Hx.
      * unfold cards. pj. now rewrite Ec.
      * congruence.
      * intros h. rewrite Ec, Eh. destruct (push_ch_meta (fix_lookup a i) (map rc_h (filter (addressed a (fix_lookup a i)) (s_clients s))) (s_ch s) h) as (_ & _ & -> & _).
        intros X. split; auto. generalize (map rc_h (filter (addressed a (fix_lookup a i)) (s_clients s))). intros hs. clear -Hm.
        generalize (s_ch s). intros f. revert f. induction hs as [|y hs IH]; intros f; cbn [push_ch]; auto. rewrite IH.
        destruct (ch_client (f y)); auto. unfold set_ch. destruct (Nat.eqb_spec h y) as [->|]; auto. cbn -[msgs]. now rewrite msgs_app, Hm, app_nil_r.
      * unfold owner_ok. pj. now rewrite Hp1.
      * now rewrite En.
Qed.
Lemma owner_run s : s_phase s = PRun -> owner_ok s.
Proof. intros H. unfold owner_ok. now rewrite H. Qed.
Lemma vinv_say E s c : vinv E s -> forallb dull c = true -> vinv E (say s c).
Proof.
  intros V Hc. apply (vinv_quiet E s _ c V); auto. apply (owner_same s _ c (w_ph E s V)); reflexivity.
Qed.
Lemma vinv_conns E s s' c ns w :
  vinv E s -> s_log s' = s_log s ++ c -> forallb dull c = true -> s_clients s' = s_clients s -> s_ch s' = s_ch s -> s_nh s' = s_nh s ->
  s_phase s' = wake_ph ns w (s_phase s) -> vinv E s'.
Proof.
  intros V El Hc Ec Eh En Hp. apply (vinv_quiet E s _ c V); auto.
  - unfold cards. now rewrite Ec.
  - intros X. rewrite Hp. now apply wake_stop.
  - rewrite Eh. auto.
  - exact (owner_wake s s' c ns w (w_ph E s V) Ec El Hp).
  - now rewrite En.
Qed.
Lemma vinv_trans E s e s' : inv E s -> NoDup (map rc_id (s_clients s)) -> vinv E s -> trans E s e s' -> vinv E s'.
Proof.
  intros I Hnd V T. pose proof I as [W Hh Hf R C A S]. pose proof (w_ph E s V) as Wp.
  destruct T;
    repeat match goal with |- vinv _ (stop _) => apply vinv_stop end; try exact V.
  Ltac qv s V c := apply (vinv_quiet _ s _ c V); [try reflexivity; symmetry; apply app_nil_r|try reflexivity|try reflexivity|try (pj; tauto)|try (intros ? X; split; [exact X|reflexivity])
    |try (apply (owner_same s _ c (w_ph _ s V)); [reflexivity|try reflexivity; symmetry; apply app_nil_r|reflexivity])|try apply le_n].
  Ltac chq := pj; let z := fresh "z" in intros z; unfold set_ch; match goal with |- context [(z =? ?y)%nat] => destruct (Nat.eqb_spec z y) end; [subst z; cbn; try tauto; try discriminate|auto].
  - qv s V (@nil obs).
  - (* a new channel pair *)
    pose proof V as [W1 W2 W3 W4 W5 W6]. constructor; pj; auto; [|intros x Hx; apply W6; lia].
    intros x. unfold set_ch. destruct (Nat.eqb_spec x (s_nh s)) as [->|Hn]; auto. cbn. exists []. split; auto.
    destruct (W5 (s_nh s)) as (rest & X & _). rewrite (W6 (s_nh s) (le_n _)) in *. symmetry in X. apply app_eq_nil in X as [-> _]. reflexivity.
  - qv s V [ORegErr (s_nh s)]. cbn. lia.
  - qv s V [OConfirm h]. chq.
  - qv s V [ORegErr h]. chq.
  - qv s V (@nil obs). chq.
  - qv s V (@nil obs).
  - qv s V (ends_log (regq_handles s) (s_ch s)); [apply dull_ends|]. intros x. pj. rewrite ends_ch_at. destruct (is_in x _); cbn; auto.
  - qv s V [OIssue h (s_nreq s) o]. chq.
  - qv s V [ORefuse h o].
  - (* a client receives *)
    destruct (match i with InMessage _ => true | _ => false end) eqn:Hi.
    + destruct i; try discriminate. pose proof V as [W1 W2 W3 W4 W5 W6].
      assert (L : forall x, look (svc E) x (s_log s ++ [OGot h (InMessage d)]) = if (h =? x)%nat then mk_view (v_mine (look (svc E) x (s_log s))) (v_id (look (svc E) x (s_log s))) (v_home (look (svc E) x (s_log s))) (v_inbox (look (svc E) x (s_log s))) (v_got (look (svc E) x (s_log s)) ++ [d]) else look (svc E) x (s_log s)).
      { intros x. rewrite look_snoc. reflexivity. }
      constructor; pj.
      * intros c X. rewrite L. destruct (h =? _)%nat; cbn; auto.
      * intros X c Y. rewrite L. destruct (h =? _)%nat; cbn; auto.
      * intros x X. rewrite L. destruct (h =? _)%nat; cbn; auto.
      * apply (owner_same s _ [OGot h (InMessage d)] Wp); reflexivity.
      * intros x. rewrite L. unfold set_ch. destruct (W5 x) as (rest & X & Y). rewrite (Nat.eqb_sym x h). destruct (Nat.eqb_spec h x) as [->|Hn]; cbn -[msgs].
        { specialize (Y H). rewrite H1 in Y. exists (msgs q). split; auto. rewrite X, Y, <- app_assoc. reflexivity. }
        { exists rest. auto. }
      * intros x X. rewrite L. destruct (h =? _)%nat; cbn; auto.
    + qv s V [OGot h i].
      * destruct i; try discriminate; reflexivity.
      * intros x. pj. unfold set_ch. destruct (Nat.eqb_spec x h) as [->|Hn]; auto. cbn -[msgs]. intros X. split; auto. rewrite H1.
        destruct i; try discriminate; reflexivity.
  - qv s V [OGone h].
  - qv s V (if ch_engine (s_ch s h) then [] else cancel_all (queued_requests (s_ch s h))).
    + destruct (ch_engine (s_ch s h)); [reflexivity|apply dull_cancel].
    + chq.
  - apply (vinv_quiet E s _ [ODial (broker_address (e_cfg E)) true] V); auto; try reflexivity; try (intros; congruence).
  - apply vinv_say; auto.
  - refine (vinv_fwd E _ _ _ _ _ _ _ H4 H5); [|pj; congruence]. apply vinv_taken; auto; [congruence|]. apply owner_run. exact H.
  - (* a connect is taken: authentication *)
    destruct (r_up s R h n (OConnect r)) as (U1 & _); [rewrite H2; now left|].
    apply (vinv_quiet E s _ (OTake n :: cancel_all dropped) V); auto.
    + apply taken_log.
    + apply dull_cancel.
    + intros X. congruence.
    + intros x. pj. unfold set_ch. destruct (Nat.eqb_spec x h) as [->|]; cbn; auto.
    + unfold owner_ok. pj. exists c, (OConnect r). split; auto. split; auto. subst h. apply in_app_iff. left. apply in_app_iff. now left.
  - destruct (r_up s R h n (OConnect r)) as (U1 & _); [rewrite H2; now left|].
    apply (vinv_quiet E s _ (OTake n :: cancel_all dropped) V); auto.
    + apply taken_log.
    + apply dull_cancel.
    + intros X. congruence.
    + intros x. pj. unfold set_ch. destruct (Nat.eqb_spec x h) as [->|]; cbn; auto.
    + unfold owner_ok. pj. exists c, (OConnect r). split; auto. split; auto. subst h. apply in_app_iff. left. apply in_app_iff. now left.
  - destruct (r_up s R h n (OConnect r)) as (U1 & _); [rewrite H2; now left|].
    assert (Vt : vinv E (taken s h q n res dropped)) by (apply vinv_taken; auto; [congruence|now apply owner_run]).
    refine (vinv_connect E _ (taken s h q n res dropped) _ _ _ _ Vt _ eq_refl _ _ _ _ _ _ H6).
    + apply moved_log.
    + apply moved_ch.
    + apply moved_nh.
    + now apply hinv_taken.
    + pj. congruence.
    + exact Hnd.
    + exists c, (OConnect r). split; auto. split; auto. subst h. split; [now apply taken_old|]. intros h' o' X. apply taken_old in X; auto.
      now destruct (r_uniq s R _ _ _ _ _ X U1).
  - apply vinv_say; auto.
  - apply (vinv_quiet E s _ [OAuthed n (Ok d)] V); auto; [intros; congruence|]. unfold owner_ok in *. pj. rewrite H in Wp.
    destruct Wp as (cc & oo & X & Y & Z). exists cc, oo. split; auto. split; auto. apply in_app_iff. now left.
  - unfold owner_ok in Wp. rewrite H in Wp. destruct Wp as (cc & oo & X & Y & Z).
    assert (Vt : vinv E (say s [OAuthed n (Ok d)])) by now apply vinv_say.
    refine (vinv_connect E _ (say s [OAuthed n (Ok d)]) _ _ _ _ Vt _ eq_refl _ _ _ _ _ _ H1).
    + apply moved_log.
    + apply moved_ch.
    + apply moved_nh.
    + apply (hinv_same s); auto; reflexivity.
    + pj. congruence.
    + exact Hnd.
    + exists cc, oo. split; auto. split; auto. split; [apply in_app_iff; now left|]. intros h' o' U. apply in_app_iff in U as [U|[U|[]]]; [|discriminate].
      now destruct (r_uniq s R _ _ _ _ _ U Z).
  - unfold owner_ok in Wp. rewrite H in Wp. destruct Wp as (cc & oo & X & Y & Z).
    assert (Vt : vinv E (say s [ODial (caddr E c) true])) by now apply vinv_say.
    refine (vinv_connect E _ (say s [ODial (caddr E c) true]) _ _ _ _ Vt _ _ _ _ _ _ _ _ H0).
    + rewrite moved_log. reflexivity.
    + unfold moved. destruct (baddr_eqb _ _); reflexivity.
    + rewrite moved_ch. reflexivity.
    + rewrite moved_nh. reflexivity.
    + apply (hinv_same s); auto; reflexivity.
    + pj. congruence.
    + exact Hnd.
    + exists cc, oo. split; auto. split; auto. split; [apply in_app_iff; now left|]. intros h' o' U. apply in_app_iff in U as [U|[U|[]]]; [|discriminate].
      now destruct (r_uniq s R _ _ _ _ _ U Z).
  - apply vinv_say; auto.
  - assert (i = InConnected) by (pose proof (c_ph E s C) as P; unfold phase_ok in P; rewrite H in P; destruct P as (_ & _ & P); eauto).
    subst i. refine (vinv_sent E s _ a ser InConnected s' V Hh R _ _ _ _ _ _ _ H0); try reflexivity. congruence.
  - apply (vinv_quiet E s _ [OHandle a ser InPing; OPonged a] V); auto. now apply owner_run.
  - apply (vinv_quiet E s _ [OHandle a ser InPing] V); auto. now apply owner_run.
  - refine (vinv_sent E s _ a ser i s' V Hh R _ _ _ _ _ _ _ H4); try reflexivity; pj; congruence.
  - eapply (vinv_reg E s _ h id topic q V Hh H0); try reflexivity; auto.
  - eapply (vinv_reg E s _ h id topic q V Hh H0); try reflexivity; auto.
  - eapply (vinv_conns E s _ _ _ _ V); reflexivity.
  - apply (vinv_conns E (popped s a k x q) _ [] (map snd (fst (put_item x (k_res k)))) Lost); try reflexivity; [|symmetry; apply app_nil_r].
    eapply (vinv_conns E s _ [] _ _ V); try reflexivity. symmetry; apply app_nil_r.
  - eapply (vinv_conns E s _ [] _ _ V); try reflexivity. symmetry; apply app_nil_r.
  - eapply (vinv_conns E s _ [] _ _ V); try reflexivity. symmetry; apply app_nil_r.
  - eapply (vinv_conns E s _ [] [] Lost V); try reflexivity. symmetry; apply app_nil_r.
  - eapply (vinv_conns E s _ _ _ _ V); reflexivity.
  - eapply (vinv_conns E s _ _ [] Lost V); reflexivity.
  - eapply (vinv_conns E s _ _ _ _ V); reflexivity.
Qed.
Lemma vinv_init E : vinv E sys_init.
Proof. constructor; cbn; try tauto. intros h. exists []. auto. Qed.
Lemma newids_prefix h e : newids h <= newids (h ++ [e]).
Proof. rewrite newids_snoc. destruct (is_newid e); lia. Qed.
Lemma reach_views E h s : reach E h s -> newids h <= two64 -> vinv E s.
Proof.
  intros H. unfold reach in H.
  assert (G : wf E s /\ (inv E s /\ idinv (newids h) s /\ (newids h <= two64 -> vinv E s))).
  { refine (run_ind E (fun h s => inv E s /\ idinv (newids h) s /\ (newids h <= two64 -> vinv E s)) sys_init (wf_init E) _ _ h s H).
    - split; [apply inv_init|]. split; [apply (reach_ids E []); reflexivity|]. intros _. apply vinv_init.
    - intros h0 s0 e s1 _ W (I & D & V) _ T _. split; [eapply inv_trans; eauto|]. split; [rewrite newids_snoc; eapply idinv_trans; eauto|].
      intros Hn. pose proof (newids_prefix h0 e). eapply vinv_trans; eauto; [|apply V; lia].
      apply (NoDup_app_l _ (map (fun x => snd (fst x)) (s_regq s0) ++ s_minted s0)). apply D. lia. }
  destruct G as (_ & _ & _ & G). exact G.
Qed.
