(** C80, first part: how reading messages makes permits good. *)
From Verif Require Import Bytes Errors Wire Utf8 Proto Engine SpecEngine SpecEngine2 ProtoFacts Codec Message SpecProto SpecMessage MessageFacts InboundFacts Consumer SpecConsumer SpecPermits ConsumerFacts ConsumerRuns PropConsumer FlowFacts PropFlow.
Open Scope N_scope.

Lemma decode_parts_len {T} (value : bytes -> option T) ps : forall l, decode_parts value ps = Some l -> length l = length ps.
Proof.
  induction ps as [|p r IH]; intros l X; cbn in X; [injection X as <-; reflexivity|].
  destruct (value (bp_data p)); [|discriminate]. destruct (decode_parts value r) as [q|]; [|discriminate]. injection X as <-. cbn. now rewrite (IH q).
Qed.
Lemma number_from_len {T} mid (l : list T) : forall i, length (number_from i mid l) = length l.
Proof. induction l as [|v r IH]; intros i; [reflexivity|]. cbn. now rewrite IH. Qed.
Lemma unpack_size {T} (value : bytes -> option T) d ms : unpack value d = Ok ms -> N.of_nat (length ms) = messages_of d.
Proof.
  destruct d as [k mid data|k mid ps]; cbn.
  - destruct (value data); [|discriminate]. now intros [= <-].
  - destruct (decode_parts value ps) as [l|] eqn:D; [|discriminate]. intros [= <-]. rewrite number_from_len. now rewrite (decode_parts_len value ps l D).
Qed.
Lemma total_app a b : total (a ++ b) = total a + total b.
Proof. unfold total. induction a as [|x a IH]; [reflexivity|]. cbn in *. lia. Qed.

(** * next_batch: what it returns is what is made good *)
Definition worth {T} (value : bytes -> option T) (n : N) (q : list inbound) : N := all_made_good value (ByBatch n) (messages q).
Lemma worth_app {T} (value : bytes -> option T) n a b : worth value n (a ++ b) = worth value n a + worth value n b.
Proof. unfold worth, all_made_good, messages. now rewrite flat_map_app, map_app, total_app. Qed.
Definition lowb {T} (value : bytes -> option T) (P n : N) (K : N) (s : cons T) : Prop :=
  c_permits s = P /\ grants (c_log s) = [] /\ c_buf s = [] /\
  (forall t p, c_tasks s t = Some p -> (exists j, pc_kind p = NextBatch j /\ N.of_nat j <= n) /\ match p with AtFlow _ _ | AtStore _ => False | AtRecv _ l => l = [] | _ => True end) /\
  c_counter s + N.of_nat (length (in_hand s)) + worth value n (c_queue s) <= K.
Ltac red_l := cbn [finish goto with_counter with_queue with_lock with_buf with_log c_lock c_tasks c_counter c_queue c_buf c_log c_permits arr1 pc_hand length app] in *.
Lemma lowb_step {T} (value : bytes -> option T) P n K s e s' : lock_ok s -> lowb value P n K s -> K < P ->
  (forall t k, e = Start t k -> exists j, k = NextBatch j /\ N.of_nat j <= n) ->
  cstep value s e = Some s' -> lowb value P n (K + worth value n (arr1 e)) s'.
Proof.
  intros HL (EP & HG & EB & HT & HC) HB HE HS. assert (W0 : worth value n [] = 0) by reflexivity.
  assert (Mk : forall t q, c_permits s' = c_permits s -> c_tasks s' = set_task (c_tasks s) t q -> c_buf s' = [] ->
     match q with Some p => (exists j, pc_kind p = NextBatch j /\ N.of_nat j <= n) /\ match p with AtFlow _ _ | AtStore _ => False | AtRecv _ l => l = [] | _ => True end | None => True end ->
     (c_log s' = c_log s \/ exists u k r, c_log s' = c_log s ++ [Returned u k r]) ->
     c_counter s' + N.of_nat (length (in_hand s')) + worth value n (c_queue s') <= K + worth value n (arr1 e) ->
     lowb value P n (K + worth value n (arr1 e)) s').
  { intros t q E1 E2 E4 Hq E3 H. split; [congruence|]. split; [|split; [exact E4|split; [|exact H]]].
    - destruct E3 as [E3|(u & k & r & E3)]; rewrite E3; [exact HG|]. rewrite grants_snoc, HG. reflexivity.
    - intros u p Hu. rewrite E2 in Hu. destruct (Nat.eq_dec u t) as [->|NE]; [rewrite set_task_same in Hu; subst q; exact Hq|rewrite set_task_other in Hu by exact NE; exact (HT u p Hu)]. }
  destruct e as [t k|t|t|i|]; cbn in HS.
  - destruct (c_tasks s t) eqn:ET; [discriminate|]. inversion HS; subst s'. eapply Mk; try reflexivity; [exact EB|split; [exact (HE t k eq_refl)|exact I]|now left|].
    replace (in_hand (goto s t (AtCheck k))) with (in_hand s) by (symmetry; oh). red_l; rewrite ?W0 in *; lia.
  - destruct (c_tasks s t) as [p|] eqn:ET; [|discriminate]. destruct (HT _ _ ET) as [(j & Hk & Hj) Hp].
    destruct p as [k|k c|k|k|k taken|k out]; cbn in Hk; subst k; try contradiction; cbn in HS.
    + assert (HLt : (c_permits s <=? c_counter s) = false) by (apply N.leb_gt; lia). rewrite HLt in HS. inversion HS; subst s'.
      eapply Mk; try reflexivity; [exact EB|split; [eexists; split; [reflexivity|exact Hj]|exact I]|now left|].
      replace (in_hand (goto s t (AtLock (NextBatch j)))) with (in_hand s) by (symmetry; oh). red_l; rewrite ?W0 in *; lia.
    + destruct (c_lock s) eqn:EL; [discriminate|]. rewrite (free_hand s EL) in HC. rewrite EB in HS. unfold pop_up_to in HS. cbn [rev] in HS. rewrite firstn_nil, skipn_nil in HS. cbn in HS.
      inversion HS; subst s'. eapply Mk; try reflexivity; [split; [|destruct j; [exact I|reflexivity]]|now left|].
      * exists j. split; [destruct j; reflexivity|exact Hj].
      * unfold in_hand. red_l. lk. destruct j; red_l; rewrite ?W0 in *; lia.
    + subst taken. rewrite (my_hand s t _ HL ET eq_refl) in HC. cbn [pc_hand length] in HC.
      pose proof (lock_holder _ _ _ HL ET eq_refl) as EL.
      destruct (c_queue s) as [|i q] eqn:EQ.
      * destruct (c_open s); inversion HS; subst s'. eapply Mk; try reflexivity; [exact EB|right; cbn; eauto|]. unfold in_hand. cbn [finish c_lock c_counter c_queue length]. rewrite EQ. red_l; rewrite ?W0 in *; lia.
      * change (i :: q) with ([i] ++ q) in HC. rewrite worth_app in HC.
        assert (HO : s' = with_queue s q -> lowb value P n (K + worth value n (arr1 (Step t))) s').
        { intros ->. split; [exact EP|]. split; [exact HG|]. split; [exact EB|]. split; [exact HT|].
          change (in_hand (with_queue s q)) with (in_hand s). rewrite (my_hand s t _ HL ET eq_refl). cbn [pc_hand length with_queue c_counter c_queue arr1]. rewrite ?W0 in *. lia. }
        destruct i; try (apply HO; now inversion HS). clear HO.
        change (worth value n [InMessage d]) with (made_good value (ByBatch n) d + 0) in HC. unfold made_good in HC.
        destruct (unpack value d) as [ms|er|] eqn:U; inversion HS; subst s'; [eapply Mk; try reflexivity; [exact EB| |cbn; eauto|] | eapply Mk; try reflexivity; [exact EB|cbn; eauto|] | eapply Mk; try reflexivity; [exact EB|cbn; eauto|]].
        -- split; [exists j; split; [reflexivity|exact Hj]|exact I].
        -- unfold in_hand. cbn [goto with_queue c_lock c_tasks c_counter c_queue arr1]. rewrite EL. lk. cbn [pc_hand app pop_up_to fst length]. rewrite Nat.sub_0_r, firstn_length, rev_length.
           pose proof (unpack_size value d ms U). rewrite ?W0 in *. lia.
        -- unfold in_hand. red_l; rewrite ?W0 in *; lia.
        -- unfold in_hand. red_l; rewrite ?W0 in *; lia.
    + rewrite (my_hand s t _ HL ET eq_refl) in HC. cbn [pc_hand] in HC. inversion HS; subst s'.
      eapply Mk; try reflexivity; [exact EB|right; cbn; eauto|]. unfold in_hand. red_l. rewrite ?W0 in *.
      pose proof (N.mod_le (c_counter s + N.of_nat (length out)) u32_max). unfold u32_max in *. lia.
  - destruct (c_tasks s t) as [p|] eqn:ET; [|discriminate].
    destruct p as [k|k c|k|k|k taken|k out]; inversion HS; subst s'; (eapply Mk; try reflexivity; [exact EB|now left|]).
    + match goal with |- context [in_hand ?x] => replace (in_hand x) with (in_hand s) by (symmetry; oh) end. red_l; rewrite ?W0 in *; lia.
    + match goal with |- context [in_hand ?x] => replace (in_hand x) with (in_hand s) by (symmetry; oh) end. red_l; rewrite ?W0 in *; lia.
    + unfold in_hand. red_l; rewrite ?W0 in *; lia.
  - destruct (c_open s); inversion HS; subst s'. split; [exact EP|]. split; [exact HG|]. split; [exact EB|]. split; [exact HT|].
    change (in_hand (with_queue s (c_queue s ++ [i]))) with (in_hand s). cbn [c_queue with_queue c_counter arr1]. rewrite worth_app. lia.
  - inversion HS; subst s'. split; [exact EP|]. split; [exact HG|]. split; [exact EB|]. split; [exact HT|].
    change (c_counter s + N.of_nat (length (in_hand s)) + worth value n (c_queue s) <= K + 0). lia.
Qed.
Lemma messages_arr1 h e : messages (SpecConsumer.arrivals (h ++ [e])) = messages (SpecConsumer.arrivals h) ++ messages (arr1 e).
Proof. rewrite arrivals_app. unfold messages. rewrite flat_map_app. f_equal. destruct e; reflexivity. Qed.
(** Reading with next_message makes good one permit per entry, reading with next_batch
    for at most n messages at most n per entry (the rest of the entry is dropped). Until a
    full window has been made good no permits are granted, under every interleaving of
    calls. *)
Theorem C80_no_grants_below_window : forall T (value : bytes -> option T) m P h s,
  reads_by m h -> reaches value P h s -> all_made_good value m (messages (SpecConsumer.arrivals h)) < P -> grants (c_log s) = [].
Proof.
  intros T value [|n] P h s HN HR HB.
  - apply (C29_no_grants_below_window_entries T value P h s HN HR).
    replace (good_entries value h) with (all_made_good value ByMessage (messages (SpecConsumer.arrivals h))); [exact HB|].
    unfold good_entries. clear. induction (SpecConsumer.arrivals h) as [|i l IH]; [reflexivity|]. cbn [filter]. destruct i; try exact IH.
    change (messages (InMessage d :: l)) with (d :: messages l). unfold all_made_good in *. cbn [map total fold_right]. unfold total in IH. rewrite IH. unfold made_good. cbn [good_entry].
    destruct (unpack value d); cbn [length]; lia.
  - assert (HLow : lowb value P n (worth value n (SpecConsumer.arrivals h)) s); [|now destruct HLow as (_ & HG & _)].
    revert HN HB. unfold reaches in HR. revert h s HR.
    apply (crun_ind value (fun h s => reads_by (ByBatch n) h -> all_made_good value (ByBatch n) (messages (SpecConsumer.arrivals h)) < P -> lowb value P n (worth value n (SpecConsumer.arrivals h)) s)).
    + intros _ _. split; [reflexivity|]. split; [reflexivity|]. split; [reflexivity|]. split; [intros t p H; discriminate|]. cbn. lia.
    + intros h s e s' HR IH HS HN HB.
      assert (HN' : reads_by (ByBatch n) h) by (intros t k Hk; apply (HN t); apply in_or_app; now left).
      fold (worth value n (SpecConsumer.arrivals (h ++ [e]))) in HB. fold (worth value n (SpecConsumer.arrivals h)) in IH.
      assert (W : worth value n (SpecConsumer.arrivals (h ++ [e])) = worth value n (SpecConsumer.arrivals h) + worth value n (arr1 e)).
      { rewrite <- worth_app. unfold worth. rewrite messages_arr1. unfold messages. now rewrite flat_map_app. }
      rewrite W in *.
      assert (HL : lowb value P n (worth value n (SpecConsumer.arrivals h)) s) by (apply IH; [exact HN'|lia]).
      apply (lowb_step value P n _ s e s'); try assumption; [exact (run_lock value h _ _ (init_lock P) HR)|lia|].
      intros t k ->. apply (HN t k). apply in_app_iff. right. now left.
Qed.
Print Assumptions C80_no_grants_below_window.
