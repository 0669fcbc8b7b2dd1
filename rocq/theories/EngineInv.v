(** Invariants of the engine: handles, ids, channel ends. *)
From Coq Require Import Permutation.
From Verif Require Import Bytes Errors Wire Proto Codec Address Message Client Engine EngineFacts.
Open Scope N_scope.

(** * Induction over schedules *)
Lemma run_app E s h1 h2 : run E s (h1 ++ h2) = match run E s h1 with Some s1 => run E s1 h2 | None => None end.
Proof. revert s. induction h1 as [|e r IH]; intros s; cbn [run app]; auto. destruct (step E s e); auto. Qed.
Lemma wf_init E : wf E sys_init.
Proof. constructor; cbn; auto; try tauto; congruence. Qed.
Lemma run_ind (E : env) (P : list event -> sys -> Prop) s0 :
  wf E s0 -> P [] s0 ->
  (forall h s e s', run E s0 h = Some s -> wf E s -> P h s -> step E s e = Some s' -> trans E s e s' -> wf E s' -> P (h ++ [e]) s') ->
  forall h s, run E s0 h = Some s -> wf E s /\ P h s.
Proof.
  intros W0 P0 IH h. induction h as [|e h IHh] using rev_ind; intros s H.
  - injection H as <-. auto.
  - rewrite run_app in H. destruct (run E s0 h) as [s1|] eqn:R; [|discriminate].
    destruct (IHh s1 eq_refl) as [W1 P1]. cbn [run] in H.
    destruct (step E s1 e) as [s2|] eqn:S; [|discriminate]. injection H as <-.
    pose proof (step_trans _ _ _ _ W1 S) as T. pose proof (wf_trans _ _ _ _ W1 T) as W2. eauto.
Qed.
Lemma reach_inv (E : env) (P : sys -> Prop) :
  P sys_init -> (forall s e s', wf E s -> P s -> trans E s e s' -> P s') -> forall h s, reach E h s -> P s.
Proof.
  intros P0 IH h s H. refine (proj2 (run_ind E (fun _ => P) sys_init (wf_init E) P0 _ h s H)). eauto.
Qed.
Lemma reach_wf E h s : reach E h s -> wf E s.
Proof. intros H. exact (proj1 (run_ind E (fun _ _ => True) sys_init (wf_init E) I (fun _ _ _ _ _ _ _ _ _ _ => I) h s H)). Qed.

(** Splits a transition into its cases. *)
Ltac cases T :=
  destruct T;
  repeat match goal with F : fwd _ _ _ _ _ |- _ => destruct F | S : sent _ _ _ _ _ |- _ => destruct S end;
  rewrite ?stop_eq.

Lemma moved_log E s id c : s_log (moved E s id c) = s_log s.
Proof. unfold moved. now destruct (baddr_eqb _ _). Qed.
Lemma moved_ch E s id c : s_ch (moved E s id c) = s_ch s.
Proof. unfold moved. now destruct (baddr_eqb _ _). Qed.
Lemma moved_res E s id c : s_res (moved E s id c) = s_res s.
Proof. unfold moved. now destruct (baddr_eqb _ _). Qed.
Lemma moved_phase E s id c : s_phase (moved E s id c) = s_phase s.
Proof. unfold moved. now destruct (baddr_eqb _ _). Qed.
Lemma moved_regq E s id c : s_regq (moved E s id c) = s_regq s.
Proof. unfold moved. now destruct (baddr_eqb _ _). Qed.
Lemma moved_mgr E s id c : s_mgr (moved E s id c) = s_mgr s.
Proof. unfold moved. now destruct (baddr_eqb _ _). Qed.
Lemma moved_nh E s id c : s_nh (moved E s id c) = s_nh s.
Proof. unfold moved. now destruct (baddr_eqb _ _). Qed.
Lemma moved_misc E s id c :
  s_waiting (moved E s id c) = s_waiting s /\ s_acks (moved E s id c) = s_acks s /\ s_nextid (moved E s id c) = s_nextid s /\
  s_minted (moved E s id c) = s_minted s /\ s_nreq (moved E s id c) = s_nreq s /\ s_narr (moved E s id c) = s_narr s.
Proof. unfold moved. now destruct (baddr_eqb _ _). Qed.
Lemma moved_h E s id c : map rc_h (s_clients (moved E s id c)) = map rc_h (s_clients s).
Proof.
  unfold moved. destruct (baddr_eqb _ _); auto. cbn. unfold move_client. rewrite map_map. apply map_ext.
  intros x. now destruct (rc_id x =? id).
Qed.
Lemma moved_ids E s id c : map (fun x => (rc_h x, rc_id x)) (s_clients (moved E s id c)) = map (fun x => (rc_h x, rc_id x)) (s_clients s).
Proof.
  unfold moved. destruct (baddr_eqb _ _); auto. cbn. unfold move_client. rewrite map_map. apply map_ext.
  intros x. now destruct (rc_id x =? id).
Qed.

(** * The log only grows, and never with a fault *)
Lemma ends_log_cancel hs f o : In o (ends_log hs f) -> exists n, o = OCancel n.
Proof.
  revert f. induction hs as [|h r IH]; intros f; cbn; [tauto|].
  rewrite in_app_iff. intros [H|H]; [|eauto].
  destruct (ch_client (f h)); [destruct H|]. unfold cancel_all in H. apply in_map_iff in H as (n & <- & _). eauto.
Qed.
Lemma cancel_all_cancel l o : In o (cancel_all l) -> exists n, o = OCancel n.
Proof. unfold cancel_all. intros H. apply in_map_iff in H as (n & <- & _). eauto. Qed.
Lemma trans_log E s e s' : trans E s e s' -> exists l, s_log s' = s_log s ++ l /\ ~ In OFault l.
Proof.
  intros T. cases T; pj; rewrite ?moved_log; pj; rewrite <- ?app_assoc;
    try (exists []; rewrite app_nil_r; split; [reflexivity|tauto]);
    (eexists; split; [reflexivity|]); intros Hin; cbn in Hin; rewrite ?in_app_iff in Hin;
    repeat (match goal with
            | H : _ \/ _ |- _ => destruct H
            | H : In _ (ends_log _ _) |- _ => apply ends_log_cancel in H as [? ?]
            | H : In _ (cancel_all _) |- _ => apply cancel_all_cancel in H as [? ?]
            | H : In _ (_ :: _) |- _ => destruct H
            | H : In _ (_ ++ _) |- _ => apply in_app_iff in H
            | H : In _ [] |- _ => destruct H
            | H : In _ (if ?b then _ else _) |- _ => destruct b
            | H : False |- _ => destruct H
            end; try discriminate; auto).
Qed.
Lemma reach_no_fault E h s : reach E h s -> ~ In OFault (s_log s).
Proof.
  revert h s. apply reach_inv; [cbn; tauto|]. intros s e s' _ IH T.
  apply trans_log in T as (l & -> & Hl). rewrite in_app_iff. tauto.
Qed.

(** * Channel ends *)
Lemma is_in_spec h l : is_in h l = true <-> In h l.
Proof.
  unfold is_in. rewrite existsb_exists. split.
  - intros (x & Hx & He). apply Nat.eqb_eq in He. now subst.
  - intros H. exists h. now rewrite Nat.eqb_refl.
Qed.
Lemma ends_ch_at hs f x : ends_ch hs f x = if is_in x hs then ch_drop_engine (f x) else f x.
Proof.
  revert f. induction hs as [|h r IH]; intros f; cbn; auto.
  rewrite IH. unfold set_ch. destruct (x =? h)%nat eqn:X; cbn; auto.
  apply Nat.eqb_eq in X; subst h. destruct (is_in x r); auto.
Qed.
Definition meta (c : chan) : N * bool * bool * bool := (ch_id c, ch_client c, ch_engine c, ch_use c).

Record hinv (s : sys) : Prop := mk_hinv {
  h_nodup : NoDup (map rc_h (s_clients s) ++ regq_handles s);
  h_lt : forall h, In h (map rc_h (s_clients s) ++ regq_handles s) -> (h < s_nh s)%nat;
  h_cid : forall h id, In (h, id) (map (fun c => (rc_h c, rc_id c)) (s_clients s)) -> ch_id (s_ch s h) = id;
  h_rid : forall h id t, In (h, id, t) (s_regq s) -> ch_id (s_ch s h) = id;
  h_engine : forall h, ch_engine (s_ch s h) = true <->
      ((In h (map rc_h (s_clients s)) /\ s_phase s <> PStop) \/ (In h (regq_handles s) /\ (s_phase s <> PStop \/ s_mgr s = true)));
  h_live : forall h, ch_client (s_ch s h) = true -> (h < s_nh s)%nat;
  h_wait : forall h, In h (s_waiting s) -> ch_client (s_ch s h) = true /\ ch_use (s_ch s h) = false;
  h_mgr : s_mgr s = false -> s_waiting s = [] }.

Lemma hinv_same s s' :
  hinv s -> map (fun c => (rc_h c, rc_id c)) (s_clients s') = map (fun c => (rc_h c, rc_id c)) (s_clients s) ->
  s_regq s' = s_regq s -> s_mgr s' = s_mgr s -> s_waiting s' = s_waiting s -> s_nh s' = s_nh s ->
  (s_phase s' = PStop <-> s_phase s = PStop) -> (forall x, meta (s_ch s' x) = meta (s_ch s x)) -> hinv s'.
Proof.
  intros [H1 H2 H3 H4 H5 H6 H7 H8] E1 E2 E3 E4 E5 E6 M.
  assert (M1 : forall x, ch_id (s_ch s' x) = ch_id (s_ch s x)) by (intros x; specialize (M x); unfold meta in M; congruence).
  assert (M2 : forall x, ch_client (s_ch s' x) = ch_client (s_ch s x)) by (intros x; specialize (M x); unfold meta in M; congruence).
  assert (M3 : forall x, ch_engine (s_ch s' x) = ch_engine (s_ch s x)) by (intros x; specialize (M x); unfold meta in M; congruence).
  assert (M4 : forall x, ch_use (s_ch s' x) = ch_use (s_ch s x)) by (intros x; specialize (M x); unfold meta in M; congruence).
  assert (Ec : map rc_h (s_clients s') = map rc_h (s_clients s)).
  { apply (f_equal (map fst)) in E1. now rewrite !map_map in E1. }
  constructor; unfold regq_handles; rewrite ?Ec, ?E1, ?E2, ?E3, ?E4, ?E5; auto.
  - intros h id Hi. rewrite M1. auto.
  - intros h id t Hi. rewrite M1. eauto.
  - intros h. rewrite M3, E6. apply H5.
  - intros h. rewrite M2. auto.
  - intros h Hi. rewrite M2, M4. auto.
Qed.
Lemma meta_up s h q x : meta (s_ch (upd_ch s h (ch_set_up q)) x) = meta (s_ch s x).
Proof. cbn. unfold set_ch. destruct (x =? h)%nat eqn:X; auto. apply Nat.eqb_eq in X; now subst. Qed.
Lemma meta_push i hs f x : meta (push_ch i hs f x) = meta (f x).
Proof. unfold meta. destruct (push_ch_meta i hs f x) as (-> & _ & -> & -> & ->). reflexivity. Qed.
Lemma NoDup_app_l {A} (a b : list A) : NoDup (a ++ b) -> NoDup a.
Proof. induction a as [|x a IH]; cbn; intros H; [constructor|]. inversion H; subst. constructor; [rewrite in_app_iff in *; tauto|auto]. Qed.
Lemma NoDup_app_not {A} (a b : list A) x : NoDup (a ++ b) -> In x a -> In x b -> False.
Proof.
  induction a as [|y a IH]; cbn; [tauto|]. intros H. inversion H as [|? ? H1 H2]; subst. intros [->|Hx] Hb.
  - apply H1. rewrite in_app_iff. auto.
  - eauto.
Qed.
(** The engine ends. *)
Lemma hinv_stop s : hinv s -> s_phase s <> PStop -> hinv (stop s).
Proof.
  intros [H1 H2 H3 H4 H5 H6 H7 H8] Hp. rewrite stop_eq. constructor; pj; auto.
  - intros h id Hi. rewrite ends_ch_at. specialize (H3 h id Hi). destruct (is_in h (ended s)); auto.
  - intros h id t Hi. rewrite ends_ch_at. specialize (H4 h id t Hi). destruct (is_in h (ended s)); auto.
  - intros h. rewrite ends_ch_at. destruct (is_in h (ended s)) eqn:X.
    + apply is_in_spec in X. split; [discriminate|]. intros [[_ H]|[Hr [H|H]]]; try congruence.
      exfalso. unfold ended in X. rewrite H, app_nil_r in X. exact (NoDup_app_not _ _ _ H1 X Hr).
    + assert (X' : ~ In h (ended s)) by (rewrite <- is_in_spec; congruence). clear X. unfold ended in X'. rewrite in_app_iff in X'.
      rewrite H5. split.
      * intros [[Hc _]|[Hr _]]; [tauto|]. right. split; auto. right.
        destruct (s_mgr s); auto.
      * intros [[_ H]|[Hr [H|H]]]; try congruence. right. auto.
  - intros h. rewrite ends_ch_at. specialize (H6 h). destruct (is_in h (ended s)); auto.
  - intros h Hi. rewrite ends_ch_at. specialize (H7 h Hi). destruct (is_in h (ended s)); auto.
Qed.
Lemma hinv_fwd s id n o s' : hinv s -> s_phase s <> PStop -> fwd s id n o s' -> hinv s'.
Proof.
  intros H Hp F. destruct F; [|now apply hinv_stop].
  apply (hinv_same s); auto; try reflexivity. pj. destruct (is_connect o); split; congruence.
Qed.
Lemma hinv_sent s a ser i s' : hinv s -> sent s a ser i s' -> hinv s'.
Proof.
  intros H S. destruct S; apply (hinv_same s); auto; try reflexivity. intros x. pj. apply meta_push.
Qed.
Lemma hinv_taken s h q n res dropped : hinv s -> hinv (taken s h q n res dropped).
Proof.
  intros H. apply (hinv_same s); auto; try reflexivity. intros x. apply (meta_up s h q x).
Qed.
Lemma hinv_moved E s id c : hinv s -> hinv (moved E s id c).
Proof.
  intros H. pose proof (moved_misc E s id c) as (Hw & _). apply (hinv_same s); auto.
  - apply moved_ids.
  - apply moved_regq.
  - apply moved_mgr.
  - apply moved_nh.
  - rewrite moved_phase. tauto.
  - intros x. now rewrite moved_ch.
Qed.
Lemma remove_h_in x h l : In x (remove_h h l) <-> In x l /\ x <> h.
Proof.
  unfold remove_h. rewrite filter_In. destruct (x =? h)%nat eqn:X; cbn.
  - apply Nat.eqb_eq in X. intuition congruence.
  - apply Nat.eqb_neq in X. intuition congruence.
Qed.
Lemma wake_stop ns w p : wake_ph ns w p = PStop <-> p = PStop.
Proof.
  destruct (wake_ph_cases ns w p) as [->|(a & m & -> & _ & ->)]; split; congruence.
Qed.
Lemma NoDup_snoc {A} (l : list A) x : NoDup l -> ~ In x l -> NoDup (l ++ [x]).
Proof.
  induction l as [|y l IH]; cbn; intros H Hx; [constructor; auto; constructor|].
  inversion H; subst. constructor; [|apply IH; tauto]. rewrite in_app_iff. cbn. intuition congruence.
Qed.
Lemma hinv_reg s h id topic q s' :
  hinv s -> s_phase s = PRun -> s_regq s = (h, id, topic) :: q ->
  map (fun c => (rc_h c, rc_id c)) (s_clients s') = map (fun c => (rc_h c, rc_id c)) (s_clients s) ++ [(h, id)] ->
  s_regq s' = q -> s_mgr s' = s_mgr s -> s_waiting s' = s_waiting s -> s_nh s' = s_nh s -> s_phase s' = PRun -> s_ch s' = s_ch s ->
  hinv s'.
Proof.
  intros [H1 H2 H3 H4 H5 H6 H7 H8] Hp Hq E1 E2 E3 E4 E5 E6 E7.
  assert (Ec : map rc_h (s_clients s') = map rc_h (s_clients s) ++ [h]).
  { apply (f_equal (map fst)) in E1. rewrite map_app, !map_map in E1. exact E1. }
  assert (Er : regq_handles s = h :: regq_handles s') by (unfold regq_handles; rewrite Hq, E2; reflexivity).
  assert (Ea : map rc_h (s_clients s') ++ regq_handles s' = map rc_h (s_clients s) ++ regq_handles s)
    by (rewrite Ec, Er, <- app_assoc; reflexivity).
  constructor; rewrite ?Ea, ?E1, ?E2, ?E3, ?E4, ?E5, ?E6, ?E7; auto.
  - intros x i X. apply in_app_iff in X as [X|[X|[]]]; auto. injection X as <- <-.
    apply (H4 h id topic). rewrite Hq. now left.
  - intros x i t X. apply (H4 x i t). rewrite Hq. now right.
  - intros x. rewrite H5, Ec, Er, in_app_iff, Hp. cbn. split; intros X; intuition congruence.
Qed.
Lemma hinv_trans E s e s' : wf E s -> hinv s -> trans E s e s' -> hinv s'.
Proof.
  intros W H T. pose proof H as [H1 H2 H3 H4 H5 H6 H7 H8].
  destruct T;
    repeat match goal with
      | H : hinv ?x |- hinv ?x => exact H
      | |- hinv (stop _) => apply hinv_stop; [|pj; clear -H0; congruence]
      | F : fwd _ _ _ _ ?x |- hinv ?x => refine (hinv_fwd _ _ _ _ _ _ _ F); [|rewrite ?moved_phase; pj; clear -H0; congruence]
      | S : sent _ _ _ _ ?x |- hinv ?x => eapply hinv_sent; [|exact S]
      | |- hinv (moved _ _ _ _) => apply hinv_moved
      | |- hinv (taken _ _ _ _ _ _) => apply hinv_taken
      end;
    try match goal with
    | |- hinv _ => solve [apply (hinv_same s _ H); [reflexivity|reflexivity|reflexivity|reflexivity|reflexivity
                  |pj; rewrite ?wake_stop; clear -H0; split; intros; congruence
                  |intros z; pj; first [reflexivity|unfold set_ch; match goal with |- context [(z =? ?y)%nat] => destruct (z =? y)%nat eqn:X end; [apply Nat.eqb_eq in X; subst z|]; reflexivity]]]
    end.
  - (* register *)
    constructor; pj; unfold regq_handles; pj; rewrite ?map_app; pj; fold (regq_handles s).
    + rewrite app_assoc. apply NoDup_snoc; auto. intros X. apply H2 in X. lia.
    + intros h. rewrite app_assoc, in_app_iff. intros [X|[<-|[]]]; [apply H2 in X|]; lia.
    + intros h i X. unfold set_ch. destruct (h =? s_nh s)%nat eqn:Y; [|auto].
      apply Nat.eqb_eq in Y. subst h. exfalso.
      assert (Z : (s_nh s < s_nh s)%nat); [|lia]. apply H2. rewrite in_app_iff. left.
      apply (in_map fst) in X. now rewrite map_map in X.
    + intros h i t X. unfold set_ch. apply in_app_iff in X as [X|[X|[]]].
      * destruct (h =? s_nh s)%nat eqn:Y; [|eauto]. apply Nat.eqb_eq in Y. subst h. exfalso.
        assert (Z : (s_nh s < s_nh s)%nat); [|lia]. apply H2. rewrite in_app_iff. right.
        unfold regq_handles. apply in_map_iff. eexists; split; [|exact X]. reflexivity.
      * injection X as <- <- <-. now rewrite Nat.eqb_refl.
    + intros h. rewrite in_app_iff. unfold set_ch. destruct (h =? s_nh s)%nat eqn:Y.
      * apply Nat.eqb_eq in Y. subst h. pj. split; [|reflexivity]. intros _. right. split; [right; now left|now left].
      * apply Nat.eqb_neq in Y. rewrite H5. rewrite H0. cbn. split.
        -- intros [X|[X X']]; [now left|right]. auto.
        -- intros [X|[[X|[X|[]]] X']]; [now left|right; auto|congruence].
    + intros h. unfold set_ch. destruct (h =? s_nh s)%nat eqn:Y; [apply Nat.eqb_eq in Y; subst; lia|]. intros X. apply H6 in X. lia.
    + intros h X. unfold set_ch. apply in_app_iff in X as [X|[<-|[]]].
      * destruct (h =? s_nh s)%nat eqn:Y; [|auto]. pj. split; reflexivity.
      * rewrite Nat.eqb_refl. split; reflexivity.
    + discriminate.
  - (* register refused *)
    constructor; pj; auto.
    + intros h X. apply H2 in X. lia.
    + intros h X. apply H6 in X. lia.
  - (* confirm *)
    apply is_in_spec in H0. destruct (H7 h H0) as [Ha Hb].
    constructor; pj; auto.
    + intros x i X. unfold set_ch. destruct (x =? h)%nat eqn:Y; [apply Nat.eqb_eq in Y; subst x; pj|]; eauto.
    + intros x i t X. unfold set_ch. destruct (x =? h)%nat eqn:Y; [apply Nat.eqb_eq in Y; subst x; pj|]; eauto.
    + intros x. unfold set_ch. destruct (x =? h)%nat eqn:Y; [apply Nat.eqb_eq in Y; subst x; pj|]; apply H5.
    + intros x. unfold set_ch. destruct (x =? h)%nat eqn:Y; [apply Nat.eqb_eq in Y; subst x; pj|]; auto.
    + intros x X. apply remove_h_in in X as [X Xn]. rewrite set_ch_other by auto. auto.
    + intros X. apply H8 in X. rewrite X in H0. destruct H0.
  - (* registration failed *)
    apply is_in_spec in H0. destruct (H7 h H0) as [Ha Hb].
    constructor; pj; auto.
    + intros x i X. unfold set_ch. destruct (x =? h)%nat eqn:Y; [apply Nat.eqb_eq in Y; subst x; pj|]; eauto.
    + intros x i t X. unfold set_ch. destruct (x =? h)%nat eqn:Y; [apply Nat.eqb_eq in Y; subst x; pj|]; eauto.
    + intros x. unfold set_ch. destruct (x =? h)%nat eqn:Y; [apply Nat.eqb_eq in Y; subst x; pj|]; apply H5.
    + intros x. unfold set_ch. destruct (x =? h)%nat eqn:Y; [discriminate|]; auto.
    + intros x X. apply remove_h_in in X as [X Xn]. rewrite set_ch_other by auto. auto.
    + intros X. apply H8 in X. rewrite X in H0. destruct H0.
  - (* register dropped *)
    apply is_in_spec in H0. destruct (H7 h H0) as [Ha Hb].
    constructor; pj; auto.
    + intros x i X. unfold set_ch. destruct (x =? h)%nat eqn:Y; [apply Nat.eqb_eq in Y; subst x; pj|]; eauto.
    + intros x i t X. unfold set_ch. destruct (x =? h)%nat eqn:Y; [apply Nat.eqb_eq in Y; subst x; pj|]; eauto.
    + intros x. unfold set_ch. destruct (x =? h)%nat eqn:Y; [apply Nat.eqb_eq in Y; subst x; pj|]; apply H5.
    + intros x. unfold set_ch. destruct (x =? h)%nat eqn:Y; [discriminate|]; auto.
    + intros x X. apply remove_h_in in X as [X Xn]. rewrite set_ch_other by auto. auto.
    + intros X. apply H8 in X. rewrite X in H0. destruct H0.
  - (* manager dropped *)
    constructor; pj; auto.
    + intros h. rewrite H5. rewrite H0. split; intros [X|[X Y]]; auto.
    + intros h [].
  - (* manager dropped after the engine *)
    constructor; pj; auto.
    + intros h i X. rewrite ends_ch_at. destruct (is_in h (regq_handles s)); pj; auto.
    + intros h i t X. rewrite ends_ch_at. destruct (is_in h (regq_handles s)); pj; eauto.
    + intros h. rewrite ends_ch_at. destruct (is_in h (regq_handles s)) eqn:X; pj.
      * split; [discriminate|]. intros [[_ Y]|[_ [Y|Y]]]; congruence.
      * rewrite H5. assert (Z : ~ In h (regq_handles s)) by (rewrite <- is_in_spec; congruence).
        change (fun x => fst (fst x)) with (fun x : nat * N * bytes => fst (fst x)). fold (regq_handles s). 
        intuition congruence.
    + intros h. rewrite ends_ch_at. destruct (is_in h (regq_handles s)); pj; auto.
    + intros h [].
  - (* client dropped *)
    constructor; pj; auto.
    + intros x i X. unfold set_ch. destruct (x =? h)%nat eqn:Y; [apply Nat.eqb_eq in Y; subst x; pj|]; eauto.
    + intros x i t X. unfold set_ch. destruct (x =? h)%nat eqn:Y; [apply Nat.eqb_eq in Y; subst x; pj|]; eauto.
    + intros x. unfold set_ch. destruct (x =? h)%nat eqn:Y; [apply Nat.eqb_eq in Y; subst x; pj|]; apply H5.
    + intros x. unfold set_ch. destruct (x =? h)%nat eqn:Y; [discriminate|]; auto.
    + intros x X. destruct (H7 x X) as [Ha Hb]. unfold set_ch. destruct (x =? h)%nat eqn:Y; auto.
      apply Nat.eqb_eq in Y; subst x. congruence.
  - (* registration taken *)
    apply (hinv_reg s h id topic q); auto. pj. rewrite map_app. reflexivity.
  - apply (hinv_reg s h id topic q); auto. pj. rewrite map_app. reflexivity.
Qed.
Lemma reach_hinv E h s : reach E h s -> hinv s.
Proof.
  revert h s. apply reach_inv; [|intros; eapply hinv_trans; eauto].
  constructor; cbn; try tauto; try discriminate; [constructor|]. intros h. split; [discriminate|]. tauto.
Qed.

(** * Client ids *)
Definition ids (s : sys) : list N := map rc_id (s_clients s) ++ map (fun x => snd (fst x)) (s_regq s) ++ s_minted s.
Definition is_newid (e : event) : bool := match e with EvNewId => true | _ => false end.
Definition newids (h : list event) : N := N.of_nat (length (filter is_newid h)).
Definition idinv (k : N) (s : sys) : Prop :=
  s_nextid s = k mod two64 /\ (k <= two64 -> NoDup (ids s) /\ forall x, In x (ids s) -> x < k).
Lemma remove_n_perm x l l' : remove_n x l = Some l' -> Permutation l (x :: l').
Proof.
  revert l'. induction l as [|y r IH]; intros l' H; cbn in H; [discriminate|].
  destruct (x =? y) eqn:X.
  - apply N.eqb_eq in X. injection H as <-. subst. auto.
  - destruct (remove_n x r) as [r'|]; [|discriminate]. injection H as <-.
    specialize (IH _ eq_refl). rewrite perm_swap. now constructor.
Qed.
Lemma idinv_same k s s' :
  idinv k s -> s_nextid s' = s_nextid s -> map rc_id (s_clients s') = map rc_id (s_clients s) -> s_regq s' = s_regq s -> s_minted s' = s_minted s ->
  idinv k s'.
Proof. unfold idinv, ids. intros H -> -> -> ->. exact H. Qed.
Lemma idinv_perm k s s' : idinv k s -> s_nextid s' = s_nextid s -> Permutation (ids s) (ids s') -> idinv k s'.
Proof.
  intros [H1 H2] En P. split; [now rewrite En|]. intros Hk. destruct (H2 Hk) as [H3 H4]. split.
  - now apply (Permutation_NoDup P).
  - intros x Hx. apply H4. now apply (Permutation_in _ (Permutation_sym P)).
Qed.
Lemma moved_id E s id c : map rc_id (s_clients (moved E s id c)) = map rc_id (s_clients s).
Proof. pose proof (moved_ids E s id c) as H. apply (f_equal (map snd)) in H. now rewrite !map_map in H. Qed.
Lemma idinv_stop k s : idinv k s -> idinv k (stop s).
Proof. intros H. rewrite stop_eq. now apply (idinv_same k s). Qed.
Lemma idinv_fwd k s id n o s' : idinv k s -> fwd s id n o s' -> idinv k s'.
Proof. intros H F. destruct F; [now apply (idinv_same k s)|now apply idinv_stop]. Qed.
Lemma idinv_sent k s a ser i s' : idinv k s -> sent s a ser i s' -> idinv k s'.
Proof. intros H F. destruct F; now apply (idinv_same k s). Qed.
Lemma idinv_moved k E s id c : idinv k s -> idinv k (moved E s id c).
Proof.
  intros H. pose proof (moved_misc E s id c) as (_ & _ & A & B & _).
  apply (idinv_same k s); auto; [apply moved_id|apply moved_regq].
Qed.
Lemma idinv_trans E k s e s' : idinv k s -> trans E s e s' -> idinv (k + if is_newid e then 1 else 0) s'.
Proof.
  intros H T. destruct T; cbn [is_newid]; rewrite ?N.add_0_r;
    repeat match goal with
      | |- idinv _ (stop _) => apply idinv_stop
      | F : fwd _ _ _ _ ?x |- idinv _ ?x => eapply idinv_fwd; [|exact F]
      | S : sent _ _ _ _ ?x |- idinv _ ?x => eapply idinv_sent; [|exact S]
      | |- idinv _ (moved _ _ _ _) => apply idinv_moved
      end; try exact H;
    try solve [apply (idinv_same k s); [exact H|reflexivity|reflexivity|reflexivity|reflexivity]].
  - destruct H as [H1 H2]. split.
    + pj. rewrite H1. unfold bump. rewrite N.add_mod_idemp_l by (unfold two64; lia). reflexivity.
    + intros Hk. destruct H2 as [H2 H3]; [lia|].
      assert (Hn : s_nextid s = k) by (rewrite H1; apply N.mod_small; lia).
      unfold ids. pj. rewrite !app_assoc. rewrite <- (app_assoc (map rc_id _)). fold (ids s). split.
      * apply NoDup_snoc; auto. intros X. apply H3 in X. lia.
      * intros x Hx. apply in_app_iff in Hx as [Hx|[<-|[]]]; [apply H3 in Hx|]; lia.
  - apply (idinv_perm k s); auto. unfold ids. pj. rewrite map_app. pj.
    rewrite <- app_assoc. apply Permutation_app_head. apply Permutation_app_head. cbn. now apply remove_n_perm.
  - destruct H as [Ha Hb]. split; auto. intros Hk. destruct (Hb Hk) as [H4 H5].
    apply remove_n_perm in H1.
    assert (P : Permutation (ids s) (id :: map rc_id (s_clients s) ++ map (fun x => snd (fst x)) (s_regq s) ++ minted)).
    { unfold ids. rewrite H1. rewrite !app_assoc. symmetry. apply Permutation_middle. }
    unfold ids. pj. split.
    + apply (Permutation_NoDup P) in H4. now inversion H4.
    + intros x Hx. apply H5. apply (Permutation_in _ (Permutation_sym P)). now right.
  - apply (idinv_perm k s); auto. unfold ids. pj. rewrite H1, map_app. cbn. rewrite <- app_assoc. reflexivity.
  - apply (idinv_perm k s); auto. unfold ids. pj. rewrite H1, map_app. cbn. rewrite <- app_assoc. reflexivity.
Qed.
Lemma newids_snoc h e : newids (h ++ [e]) = newids h + if is_newid e then 1 else 0.
Proof. unfold newids. rewrite filter_app, app_length. cbn [filter]. destruct (is_newid e); cbn [length]; lia. Qed.
Lemma reach_ids E h s : reach E h s -> idinv (newids h) s.
Proof.
  intros H. refine (proj2 (run_ind E (fun h s => idinv (newids h) s) sys_init (wf_init E) _ _ h s H)).
  - split; [reflexivity|]. intros _. cbn. split; [constructor|tauto].
  - intros g t e t' _ _ IH _ T _. rewrite newids_snoc. eapply idinv_trans; eauto.
Qed.
