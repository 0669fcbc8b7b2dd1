(** Permit accounting of the consumer: invariants. *)
From Verif Require Import Bytes Errors Wire Proto Message Consumer SpecConsumer ConsumerFacts ConsumerRuns.
Open Scope N_scope.

Lemma since_app {T} (l : list (cobs T)) : forall n o, since_flow n (l ++ [o]) =
  match o with Flowed _ => 0 | Returned _ _ (Ok ms) => since_flow n l + N.of_nat (length ms) | _ => since_flow n l end.
Proof.
  induction l as [|x l IH]; intros n o; cbn.
  - destruct o as [|t k [|e|]]; reflexivity.
  - destruct x as [g|t k [ms|e|]]; apply IH.
Qed.
Lemma exact_app {T} P (l : list (cobs T)) : forall n o, flows_exact P n (l ++ [o]) <->
  flows_exact P n l /\ match o with Flowed g => g = P + since_flow n l | _ => True end.
Proof.
  induction l as [|x l IH]; intros n o; cbn.
  - destruct o as [|t k [|e|]]; cbn; tauto.
  - destruct x as [g|t k [ms|e|]]; rewrite IH; tauto.
Qed.
Lemma total_app a b : total (a ++ b) = total a + total b.
Proof. unfold total. induction a as [|x a IH]; cbn [app fold_right]; lia. Qed.
Lemma grants_snoc {T} (l : list (cobs T)) o : grants (l ++ [o]) = grants l ++ match o with Flowed g => [g] | _ => [] end.
Proof. rewrite grants_app. f_equal. destruct o as [|t k [|e|]]; reflexivity. Qed.
Lemma ret_snoc {T} (l : list (cobs T)) o : returned (l ++ [o]) = returned l ++ match o with Returned _ _ (Ok ms) => ms | _ => [] end.
Proof. rewrite returned_app. f_equal. destruct o as [|t k [|e|]]; cbn; try reflexivity. apply app_nil_r. Qed.

Lemma no_overlap_app {T} (decode : bytes -> option T) h1 : forall h2 s, no_overlap decode s (h1 ++ h2) <->
  no_overlap decode s h1 /\ match crun decode s h1 with Some s1 => no_overlap decode s1 h2 | None => True end.
Proof.
  induction h1 as [|e h1 IH]; intros h2 s; cbn; [tauto|]. destruct (cstep decode s e); [|tauto]. rewrite IH. tauto.
Qed.
Lemma no_overlap_steps {T} (decode : bytes -> option T) t n : forall s, no_overlap decode s (repeat (Step t) n).
Proof. induction n as [|n IH]; intros s; cbn [repeat no_overlap]; [exact I|]. split; [exact I|]. destruct (cstep decode s (Step t)); auto. Qed.

(** * One call at a time, nothing buffered *)
Definition kmax (k : ckind) : nat := match k with NextMessage => 1 | NextBatch n => n end.
Definition only {T} (t : nat) (s : cons T) : Prop := forall u, u <> t -> c_tasks s u = None.
Definition place {T} (P M : N) (s : cons T) (q : option (pc T)) : Prop :=
  let r := since_flow 0 (c_log s) in
  match q with
  | None => c_counter s = r /\ r < P + M
  | Some p => N.of_nat (kmax (pc_kind p)) <= M /\
      match p with
      | AtCheck _ => c_counter s = r /\ r < P + M
      | AtFlow _ c => c_counter s = r /\ c = r /\ P <= r < P + M
      | AtStore _ => r = 0
      | AtLock _ => c_counter s = r /\ r < P
      | AtRecv _ taken => taken = [] /\ c_counter s = r /\ r < P
      | AtCount _ out => N.of_nat (length out) <= M /\ c_counter s = r /\ r < P
      end
  end.
Definition seq_inv {T} (P M : N) (s : cons T) : Prop :=
  c_permits s = P /\ c_buf s = [] /\ flows_exact P 0 (c_log s) /\
  exists t, only t s /\ place P M s (c_tasks s t).

Lemma seq_at {T} P M (s : cons T) t p : seq_inv P M s -> c_tasks s t = Some p -> only t s /\ place P M s (Some p).
Proof.
  intros (_ & _ & _ & u & HO & HP) HT. destruct (Nat.eq_dec t u) as [->|NE]; [rewrite HT in HP; auto|].
  rewrite (HO _ NE) in HT. discriminate.
Qed.
Lemma seq_quiet {T} P M (s : cons T) : seq_inv P M s -> quiet s -> place P M s None.
Proof. intros (_ & _ & _ & u & HO & HP) HQ. now rewrite (HQ u) in HP. Qed.
Lemma only_set {T} (s s' : cons T) t q : only t s -> c_tasks s' = set_task (c_tasks s) t q -> only t s' /\ c_tasks s' t = q.
Proof. intros HO E. rewrite E. split; [|now lk]. intros u Hu. rewrite E. lk. now apply HO. Qed.
Lemma seq_make {T} P M (s s' : cons T) t q : only t s -> c_tasks s' = set_task (c_tasks s) t q ->
  c_permits s' = P -> c_buf s' = [] -> flows_exact P 0 (c_log s') -> place P M s' q -> seq_inv P M s'.
Proof.
  intros HO E EP EB EX HP. split; [exact EP|]. split; [exact EB|]. split; [exact EX|]. exists t.
  destruct (only_set s s' t q HO E) as [H1 H2]. rewrite H2. auto.
Qed.

(** What keeps the buffer empty: single messages only, or next_batch only. *)
Definition plain {T} (s : cons T) : Prop :=
  (forall i, In i (c_queue s) -> single_event i) \/ (forall t p, c_tasks s t = Some p -> exists n, pc_kind p = NextBatch n).

Lemma seq_step {T} (decode : bytes -> option T) P M s e s' :
  0 < P -> 1 <= M -> 2 * P + M < u32_max ->
  seq_inv P M s -> plain s -> cstep decode s e = Some s' ->
  match e with Start _ k => quiet s /\ N.of_nat (kmax k) <= M | _ => True end -> seq_inv P M s'.
Proof.
  intros HP HM HB HI HPl HS HE. pose proof HI as (EP & EB & EX & _).
  destruct e as [t k|t|t|i|]; cbn in HS.
  - destruct HE as [HQ HK]. rewrite (HQ t) in HS. inversion HS; subst s'.
    apply (seq_make P M s _ t (Some (AtCheck k))); try reflexivity; try assumption; [intros u _; apply HQ|].
    destruct (seq_quiet _ _ _ HI HQ) as [H1 H2]. cbn. auto.
  - destruct (c_tasks s t) as [p|] eqn:ET; [|discriminate]. destruct (seq_at _ _ _ _ _ HI ET) as [HO [HK HPl2]].
    destruct p as [k|k c|k|k|k taken|k out]; cbn in HS, HPl2, HK.
    + destruct HPl2 as [H1 H2]. inversion HS; subst s'.
      eapply (seq_make P M s _ t); try reflexivity; try assumption. cbn. destruct (N.leb_spec (c_permits s) (c_counter s)); cbn; rewrite ?H1 in *; split; auto; lia.
    + destruct HPl2 as (H1 & H2 & H3). destruct (c_open s); inversion HS; subst s'.
      * eapply (seq_make P M s _ t); try reflexivity; try assumption.
        -- cbn. apply exact_app. split; [exact EX|]. rewrite N.mod_small by lia. lia.
        -- cbn. rewrite since_app. auto.
      * eapply (seq_make P M s _ t); try reflexivity; try assumption.
        -- cbn. apply exact_app. auto.
        -- cbn. rewrite since_app. split; [exact H1|]. lia.
    + inversion HS; subst s'. eapply (seq_make P M s _ t); try reflexivity; try assumption. cbn. rewrite HPl2. auto.
    + destruct HPl2 as [H1 H2]. destruct k as [|n].
      * destruct (c_lock s); [discriminate|]. rewrite EB in HS. inversion HS; subst s'.
        eapply (seq_make P M s _ t); try reflexivity; try assumption. cbn. auto.
      * destruct (c_lock s); [discriminate|]. rewrite EB in HS. cbn [rev] in HS. rewrite firstn_nil, skipn_nil in HS. inversion HS; subst s'. clear HS.
        destruct n as [|n]; cbn [length Nat.eqb]; eapply (seq_make P M s _ t); try reflexivity; try assumption; cbn; auto.
    + destruct HPl2 as (H0 & H1 & H2). subst taken. destruct (c_queue s) as [|i q] eqn:EQ.
      * destruct (c_open s); inversion HS; subst s'. eapply (seq_make P M s _ t); try reflexivity; try assumption.
        -- cbn. apply exact_app. auto.
        -- cbn. rewrite since_app. split; [exact H1|]. lia.
      * assert (HQ : with_queue s q = s' -> seq_inv P M s').
        { intros <-. destruct HI as (I1 & I2 & I3 & I4). split; [exact I1|]. split; [exact I2|]. split; [exact I3|exact I4]. }
        destruct i; try (apply HQ; now inversion HS). clear HQ.
        assert (HEr : forall r, match r with Ok _ => False | _ => True end -> s' = finish (with_queue s q) t k r None -> seq_inv P M s').
        { intros r Hr ->. eapply (seq_make P M s _ t); try reflexivity; try assumption.
          - cbn. apply exact_app. auto.
          - cbn. rewrite since_app. destruct r; [destruct Hr| |]; (split; [exact H1|lia]). }
        destruct (unpack decode d) as [ms|er|] eqn:EU; [|apply (HEr (Err er) I); now inversion HS|apply (HEr Panic I); now inversion HS].
        destruct k as [|n].
        -- destruct HPl as [HPl|HPl]; [|destruct (HPl _ _ ET) as [n Hn]; discriminate].
           destruct (HPl (InMessage d)) with (d := d) as (c & mid & data & ->); [rewrite EQ; now left|reflexivity|].
           cbn in EU. destruct (decode data) as [v|]; [|discriminate]. inversion EU; subst ms. inversion HS; subst s'.
           eapply (seq_make P M s _ t); try reflexivity; try assumption; cbn; [now rewrite EB|]. auto.
        -- inversion HS; subst s'. eapply (seq_make P M s _ t); try reflexivity; try assumption. cbn.
           split; [exact HK|]. split; [rewrite Nat.sub_0_r, firstn_length; cbn [kmax] in HK; lia|]. auto.
    + destruct HPl2 as (H0 & H1 & H2). inversion HS; subst s'. eapply (seq_make P M s _ t); try reflexivity; try assumption.
      * cbn. apply exact_app. auto.
      * cbn. rewrite since_app. rewrite H1, N.mod_small by lia. split; [reflexivity|lia].
  - destruct (c_tasks s t) as [p|] eqn:ET; [|discriminate]. destruct (seq_at _ _ _ _ _ HI ET) as [HO [HK HPl2]].
    destruct p as [k|k c|k|k|k taken|k out]; cbn in HS, HPl2; inversion HS; subst s'; eapply (seq_make P M s _ t); try reflexivity; try assumption; cbn; intuition lia.
  - destruct (c_open s); inversion HS; subst s'. destruct HI as (I1 & I2 & I3 & I4). split; [exact I1|]. split; [exact I2|]. split; [exact I3|exact I4].
  - inversion HS; subst s'. destruct HI as (I1 & I2 & I3 & I4). split; [exact I1|]. split; [exact I2|]. split; [exact I3|exact I4].
Qed.
Lemma seq_init {T} P M : 0 < P -> @seq_inv T P M (cons_init P).
Proof. intros H. split; [reflexivity|]. split; [reflexivity|]. split; [exact I|]. exists O. split; [intros u _; reflexivity|]. cbn. lia. Qed.

(** Kinds of the calls under way come from the schedule. *)
Lemma kinds_started {T} (decode : bytes -> option T) h : forall s0 s, (forall t, c_tasks s0 t = None) -> crun decode s0 h = Some s ->
  forall t p, c_tasks s t = Some p -> exists u, In (Start u (pc_kind p)) h.
Proof.
  intros s0 s H0. revert h s. apply (crun_ind decode (fun h s => forall t p, c_tasks s t = Some p -> exists u, In (Start u (pc_kind p)) h)).
  - intros t p H. rewrite H0 in H. discriminate.
  - intros h s e s' _ IH HS.
    assert (HOld : forall t p, c_tasks s t = Some p -> exists u, In (Start u (pc_kind p)) (h ++ [e])).
    { intros t p H. destruct (IH t p H) as [u Hu]. exists u. apply in_or_app. now left. }
    assert (HT : forall t q, match q with Some x => exists u, In (Start u (pc_kind x)) (h ++ [e]) | None => True end ->
        forall v p, set_task (c_tasks s) t q v = Some p -> exists u, In (Start u (pc_kind p)) (h ++ [e])).
    { intros t q Hq v p Hv. destruct (Nat.eq_dec v t) as [->|NE]; lk; [subst q; exact Hq|eauto]. }
    destruct e as [u k|u|u|i|]; cbn in HS.
    + destruct (c_tasks s u); inversion HS; subst s'. apply HT. exists u. apply in_or_app. right. now left.
    + destruct (c_tasks s u) as [p|] eqn:ET; [|discriminate]. specialize (HOld _ _ ET) as HK.
      destruct p as [k|k c|k|k|k taken|k out]; cbn in HS, HK.
      * inversion HS; subst s'. apply HT. destruct (_ <=? _); exact HK.
      * destruct (c_open s); inversion HS; subst s'; apply HT; auto.
      * inversion HS; subst s'. apply HT. exact HK.
      * destruct k as [|n]; (destruct (c_lock s); [discriminate|]); [destruct (c_buf s)|]; inversion HS; subst s'; apply HT; auto.
        destruct (_ =? _)%nat; exact HK.
      * destruct (c_queue s) as [|i q]; [destruct (c_open s); inversion HS; subst s'; apply HT; exact I|].
        destruct i; try (inversion HS; subst s'; exact HOld).
        destruct (unpack decode d) as [ms|er|]; [destruct k as [|n]; [destruct ms|]|..]; inversion HS; subst s'; apply HT; auto.
      * inversion HS; subst s'. apply HT. exact I.
    + destruct (c_tasks s u) as [p|]; [|discriminate]. destruct p; inversion HS; subst s'; apply HT; exact I.
    + destruct (c_open s); inversion HS; subst s'. exact HOld.
    + inversion HS; subst s'. exact HOld.
Qed.

Lemma seq_run {T} (decode : bytes -> option T) P M h s :
  0 < P -> 1 <= M -> 2 * P + M < u32_max -> one_at_a_time decode P h -> (forall t k, In (Start t k) h -> N.of_nat (kmax k) <= M) ->
  (forall i, In i (arrivals h) -> single_event i) \/ only_next_batch h ->
  (forall h1 s1, crun decode (cons_init P) h1 = Some s1 -> incl (c_queue s1) (arrivals h1)) ->
  reaches decode P h s -> seq_inv P M s.
Proof.
  intros HP HM HB HO HK HPl HQ HR. revert HO HK HPl. unfold reaches in HR. revert h s HR.
  apply (crun_ind decode (fun h s => one_at_a_time decode P h -> (forall t k, In (Start t k) h -> N.of_nat (kmax k) <= M) ->
    (forall i, In i (arrivals h) -> single_event i) \/ only_next_batch h -> seq_inv P M s)).
  - intros _ _ _. now apply seq_init.
  - intros h s e s' HR IH HS HO HK HPl. unfold one_at_a_time in HO. apply no_overlap_app in HO. rewrite HR in HO. destruct HO as [HO HO2].
    cbn [no_overlap] in HO2. destruct HO2 as [HE _].
    assert (HK' : forall t k, In (Start t k) h -> N.of_nat (kmax k) <= M) by (intros t k H; apply (HK t); apply in_or_app; now left).
    assert (HPl' : (forall i, In i (arrivals h) -> single_event i) \/ only_next_batch h).
    { destruct HPl as [H|H]; [left; intros i Hi; apply H; rewrite arrivals_app; apply in_or_app; now left|].
      right. intros t k Hk. apply (H t). apply in_or_app. now left. }
    eapply seq_step; try eassumption; [now apply IH| |].
    + destruct HPl' as [H|H]; [left; intros i Hi; apply H; now apply (HQ _ _ HR)|].
      right. intros t p HT. destruct (kinds_started decode h (cons_init P) s (fun _ => eq_refl) HR t p HT) as [u Hu]. now apply (H u).
    + destruct e; auto. split; [exact HE|]. apply (HK t). apply in_or_app. right. now left.
Qed.

(** Window arithmetic for next_message calls (M = 1). *)
Definition rounds {T} (P : N) (s : cons T) : Prop := exists j,
  total (grants (c_log s)) = 2 * P * j /\ N.of_nat (length (returned (c_log s))) = P * j + since_flow 0 (c_log s).
Lemma rounds_step {T} (decode : bytes -> option T) P s e s' : 0 < P -> 2 * P + 1 < u32_max -> seq_inv P 1 s -> rounds P s ->
  cstep decode s e = Some s' -> rounds P s'.
Proof.
  intros HP HB HI (j & HG & HL) HS. pose proof HI as (EP & EB & EX & _).
  assert (Old : c_log s' = c_log s -> rounds P s') by (intros E; exists j; rewrite E; auto).
  assert (Ret : forall t k r, c_log s' = c_log s ++ [Returned t k r] -> rounds P s').
  { intros t k r E. exists j. rewrite E, grants_snoc, since_app, ret_snoc, app_nil_r. split; [exact HG|].
    destruct r as [ms|er|]; rewrite ?app_nil_r; [rewrite app_length; lia|exact HL|exact HL]. }
  destruct e as [t k|t|t|i|]; cbn in HS.
  - destruct (c_tasks s t); inversion HS; subst s'. now apply Old.
  - destruct (c_tasks s t) as [p|] eqn:ET; [|discriminate]. destruct (seq_at _ _ _ _ _ HI ET) as [HO [HK HPl2]].
    destruct p as [k|k c|k|k|k taken|k out]; cbn in HS, HPl2.
    + inversion HS; subst s'. now apply Old.
    + destruct (c_open s); inversion HS; subst s'; [|eapply Ret; reflexivity].
      exists (j + 1). cbn. rewrite grants_snoc, since_app, ret_snoc, app_nil_r, total_app. cbn.
      rewrite N.mod_small by lia. split; lia.
    + inversion HS; subst s'. now apply Old.
    + destruct k as [|n]; (destruct (c_lock s); [discriminate|]); [destruct (c_buf s)|]; inversion HS; subst s'; try (now apply Old); eapply Ret; reflexivity.
    + destruct (c_queue s) as [|i q]; [destruct (c_open s); inversion HS; subst s'; eapply Ret; reflexivity|].
      destruct i; try (inversion HS; subst s'; now apply Old).
      destruct (unpack decode d) as [ms|er|]; [destruct k as [|n]; [destruct ms|]|..]; inversion HS; subst s'; try (now apply Old); eapply Ret; reflexivity.
    + inversion HS; subst s'. eapply Ret; reflexivity.
  - destruct (c_tasks s t) as [p|]; [|discriminate]. destruct p; inversion HS; subst s'; now apply Old.
  - destruct (c_open s); inversion HS; subst s'; now apply Old.
  - inversion HS; subst s'; now apply Old.
Qed.
