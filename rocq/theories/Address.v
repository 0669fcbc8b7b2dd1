(** Model of src/broker_address.rs, of [PulsarConfig] (src/pulsar.rs:14-30) and
    of the decimal rendering used by [format!] in them and in the resolver keys. *)
From Verif Require Import Bytes.
Open Scope N_scope.

(** [Display] of an unsigned integer: decimal digits, no leading zero. *)
Definition digit (n : N) : byte := n2b (48 + n).
Fixpoint dec_go (fuel : nat) (n : N) : bytes :=
  match fuel with
  | O => []
  | S f => if n <? 10 then [digit n] else dec_go f (n / 10) ++ [digit (n mod 10)]
  end.
Definition dec (n : N) : bytes := dec_go (S (N.size_nat n)) n.

(** [str::starts_with] on UTF-8 bytes. *)
Fixpoint starts_with (p b : bytes) : bool :=
  match p, b with
  | [], _ => true
  | x :: p', y :: b' => byte_eqb x y && starts_with p' b'
  | _ :: _, [] => false
  end.

(** [str::trim_start_matches(pat)]: removes the prefix repeatedly. Each removal
    shortens the string (pat is non-empty), so its length is enough fuel. *)
Fixpoint trim_go (fuel : nat) (p b : bytes) : bytes :=
  match fuel with
  | O => b
  | S f => if starts_with p b then trim_go f p (skipn (length p) b) else b
  end.
Definition trim_start_matches (p b : bytes) : bytes := trim_go (length b) p b.

(** src/broker_address.rs:3-7, [enum BrokerAddress]. *)
Inductive baddr := Direct (url : bytes) | Proxy (url proxy : bytes).

(** Derived [PartialEq]/[Eq] (src/broker_address.rs:3). *)
Definition baddr_eqb (a b : baddr) : bool :=
  match a, b with
  | Direct u, Direct v => bytes_eqb u v
  | Proxy u p, Proxy v q => bytes_eqb u v && bytes_eqb p q
  | _, _ => false
  end.
Lemma baddr_eqb_spec a b : baddr_eqb a b = true <-> a = b.
Proof.
  destruct a, b; cbn; rewrite ?andb_true_iff, ?bytes_eqb_spec; intuition congruence.
Qed.
Lemma baddr_eqb_refl a : baddr_eqb a a = true.
Proof. now apply baddr_eqb_spec. Qed.
Lemma baddr_eqb_neq a b : baddr_eqb a b = false <-> a <> b.
Proof.
  destruct (baddr_eqb a b) eqn:E; split; intros H; try discriminate; auto.
  - apply baddr_eqb_spec in E. contradiction.
  - intros ->. rewrite baddr_eqb_refl in E. discriminate.
Qed.
Definition baddr_dec (a b : baddr) : {a = b} + {a <> b}.
Proof. destruct (baddr_eqb a b) eqn:E; [left; now apply baddr_eqb_spec|right; now apply baddr_eqb_neq]. Defined.

(** src/broker_address.rs:10-15, [base_url]. *)
Definition base_url (a : baddr) : bytes := match a with Direct u => u | Proxy u _ => u end.
(** src/broker_address.rs:17-22, [is_proxy], is used nowhere and left out. *)
(** src/broker_address.rs:24-29, [get_proxy]. *)
Definition get_proxy (a : baddr) : option bytes :=
  match a with Direct _ => None | Proxy _ p => Some (trim_start_matches (str "pulsar://") p) end.
(** src/broker_address.rs:31-33, [is_tls]. *)
Definition is_tls (a : baddr) : bool := starts_with (str "pulsar+ssl://") (base_url a).
(** src/broker_address.rs:36-43, [Display]. *)
Definition addr_string (a : baddr) : bytes :=
  match a with Direct u => u | Proxy u p => u ++ str " -> " ++ p end.

(** src/pulsar.rs:14-18, [PulsarConfig]; the port is a u16. *)
Record config := mk_config { endpoint_url : bytes; endpoint_port : N }.
(** src/pulsar.rs:21-25, [PulsarConfig::broker_address]. *)
Definition broker_address (c : config) : baddr :=
  Direct (endpoint_url c ++ str ":" ++ dec (endpoint_port c)).
(** src/pulsar.rs:27-29, [PulsarConfig::is_tls]. *)
Definition config_is_tls (c : config) : bool := starts_with (str "pulsar+ssl://") (endpoint_url c).

(** src/pulsar.rs:138-154 (inside [handle_client_outbound]): the address a connect
    request is sent to. A proxied address without url gets the configured one, a
    missing address becomes the configured one, any other is kept. *)
Definition fill_address (c : config) (a : option baddr) : baddr :=
  match a with
  | Some (Proxy [] proxy) => Proxy (base_url (broker_address c)) proxy
  | Some (Proxy url proxy) => Proxy url proxy
  | None => broker_address c
  | Some (Direct url) => Direct url
  end.

(** * Facts *)
Definition undec (b : bytes) : N := fold_left (fun acc x => acc * 10 + (b2n x - 48)) b 0.
Lemma digit_val n : n < 10 -> b2n (digit n) = 48 + n.
Proof. intros H. unfold digit. apply b2n_n2b_small. lia. Qed.
Lemma undec_dec_go f n : n < 2 ^ N.of_nat f -> (f <> 0)%nat -> undec (dec_go f n) = n.
Proof.
  revert n. induction f as [|f IH]; intros n Hn Hf; [lia|]. cbn [dec_go].
  destruct (N.ltb_spec n 10) as [H|H].
  - unfold undec. cbn [fold_left]. rewrite digit_val by assumption. lia.
  - unfold undec. rewrite fold_left_app. fold (undec (dec_go f (n / 10))).
    rewrite IH.
    + cbn [fold_left]. rewrite digit_val by (apply N.mod_lt; lia).
      rewrite (N.div_mod n 10) at 3 by lia. lia.
    + replace (N.of_nat (S f)) with (N.succ (N.of_nat f)) in Hn by lia. rewrite N.pow_succ_r' in Hn.
      apply N.div_lt_upper_bound; lia.
    + intros ->. cbn in Hn. lia.
Qed.
Lemma undec_dec n : undec (dec n) = n.
Proof.
  apply undec_dec_go; [|lia].
  assert (E : N.of_nat (N.size_nat n) = N.size n).
  { destruct n as [|p]; [reflexivity|]. unfold N.size_nat, N.size.
    induction p as [p IH|p IH|]; [| |reflexivity].
    - change (Pos.size_nat p~1) with (S (Pos.size_nat p)). change (Pos.size p~1) with (Pos.succ (Pos.size p)). lia.
    - change (Pos.size_nat p~0) with (S (Pos.size_nat p)). change (Pos.size p~0) with (Pos.succ (Pos.size p)). lia. }
  pose proof (N.size_gt n). replace (N.of_nat (S (N.size_nat n))) with (N.succ (N.size n)) by lia. rewrite N.pow_succ_r'. lia.
Qed.
Lemma dec_inj a b : dec a = dec b -> a = b.
Proof. intros H. rewrite <- (undec_dec a), <- (undec_dec b). now rewrite H. Qed.

Lemma dec_digits n : Forall (fun x => 48 <= b2n x < 58) (dec n).
Proof.
  unfold dec. generalize (S (N.size_nat n)). intros f. revert n. induction f as [|f IH]; intros n; cbn [dec_go]; [constructor|].
  destruct (N.ltb_spec n 10).
  - constructor; [|constructor]. rewrite digit_val by lia. lia.
  - apply Forall_app. split; [apply IH|]. constructor; [|constructor].
    assert (n mod 10 < 10) by (apply N.mod_lt; lia). rewrite digit_val by lia. lia.
Qed.

Lemma starts_with_spec p b : starts_with p b = true <-> exists r, b = p ++ r.
Proof.
  revert b. induction p as [|x p IH]; intros b; cbn.
  - split; eauto.
  - destruct b as [|y b]; [split; [discriminate|intros [r H]; discriminate]|].
    rewrite andb_true_iff, byte_eqb_spec, IH. split.
    + intros [-> [r ->]]. now exists r.
    + intros [r H]. inversion H. eauto.
Qed.

Lemma trim_go_spec p f b : p <> [] -> (length b <= f)%nat ->
  exists k, b = concat (repeat p k) ++ trim_go f p b /\ starts_with p (trim_go f p b) = false.
Proof.
  intros Hp. revert b. induction f as [|f IH]; intros b Hb; cbn.
  - exists 0%nat. destruct b; [|cbn in Hb; lia]. destruct p; [contradiction|]. auto.
  - destruct (starts_with p b) eqn:E.
    + apply starts_with_spec in E. destruct E as [r ->].
      rewrite skipn_app, skipn_all, Nat.sub_diag. cbn [app skipn].
      destruct (IH r) as (k & Hk & Hs).
      { rewrite app_length in Hb. destruct p; [contradiction|]. cbn in Hb. lia. }
      exists (S k). cbn. rewrite <- app_assoc, <- Hk. auto.
    + exists 0%nat. auto.
Qed.
(** [trim_start_matches] removes some number of copies and leaves no further one. *)
Lemma trim_spec p b : p <> [] ->
  exists k, b = concat (repeat p k) ++ trim_start_matches p b /\ starts_with p (trim_start_matches p b) = false.
Proof. intros Hp. apply trim_go_spec; auto. Qed.
