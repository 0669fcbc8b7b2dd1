(** C65: the token request names exactly the configured credentials. *)
From Coq Require Import Strings.Byte.
From Verif Require Import Bytes Token SpecToken.
Open Scope N_scope.

(** * The serializer's bytes *)
Definition harmless (x : byte) : bool := negb (byte_eqb x x26) && negb (byte_eqb x x3d).
Lemma form_byte_harmless x : forallb harmless (form_byte x) = true.
Proof. destruct x; vm_compute; reflexivity. Qed.
Lemma form_value_harmless v : forallb harmless (form_value v) = true.
Proof. induction v as [|x v IH]; [reflexivity|]. cbn [form_value flat_map]. rewrite forallb_app, form_byte_harmless. exact IH. Qed.
Lemma unform_byte x r : unform (form_byte x ++ r) = x :: unform r.
Proof. destruct x; reflexivity. Qed.
Lemma unform_value v : unform (form_value v) = v.
Proof. induction v as [|x v IH]; [reflexivity|]. cbn [form_value flat_map]. rewrite unform_byte. f_equal. exact IH. Qed.

Definition lacks (c : byte) (l : bytes) : Prop := ~ In c l.
Lemma byte_eqb_neq a b : a <> b -> byte_eqb a b = false.
Proof. intros H. destruct (byte_eqb a b) eqn:E; auto. apply byte_eqb_spec in E. contradiction. Qed.
Lemma cut_at c a b : lacks c a -> cut c (a ++ c :: b) = (a, b).
Proof.
  intros H. induction a as [|x a IH]; cbn; [now rewrite byte_eqb_refl|].
  rewrite byte_eqb_neq by (intros ->; apply H; now left). rewrite IH; [reflexivity|]. intros X. apply H. now right.
Qed.
Lemma split_lacks c a : lacks c a -> split c a = [a].
Proof.
  intros H. induction a as [|x a IH]; [reflexivity|]. cbn.
  rewrite byte_eqb_neq by (intros ->; apply H; now left). rewrite IH; [reflexivity|]. intros X. apply H. now right.
Qed.
Lemma split_at c a b : lacks c a -> split c (a ++ c :: b) = a :: split c b.
Proof.
  intros H. induction a as [|x a IH]; cbn; [now rewrite byte_eqb_refl|].
  rewrite byte_eqb_neq by (intros ->; apply H; now left). rewrite IH; [reflexivity|]. intros X. apply H. now right.
Qed.
Lemma split_join c l : l <> [] -> Forall (lacks c) l -> split c (join [c] l) = l.
Proof.
  intros Hn H. induction H as [|a l Ha Hl IH]; [congruence|]. destruct l as [|b l]; [now apply split_lacks|].
  change (join [c] (a :: b :: l)) with (a ++ c :: join [c] (b :: l)). rewrite split_at by exact Ha. f_equal. apply IH. discriminate.
Qed.
Lemma value_lacks v : lacks x26 (form_value v) /\ lacks x3d (form_value v).
Proof.
  pose proof (form_value_harmless v) as H. rewrite forallb_forall in H.
  split; intros X; apply H in X; vm_compute in X; discriminate.
Qed.
Lemma pair_lacks p : lacks x26 (form_pair p).
Proof.
  unfold form_pair. intros X. apply in_app_iff in X as [X|X]; [now apply value_lacks in X|].
  apply in_app_iff in X as [[X|[]]|X]; [discriminate|now apply value_lacks in X].
Qed.
(** Any list of pairs is read back as it is. *)
Lemma read_form_form ps : read_form (form ps) = ps.
Proof.
  unfold read_form, form. destruct ps as [|p ps]; [reflexivity|].
  assert (S : split x26 (join (str "&") (map form_pair (p :: ps))) = map form_pair (p :: ps)).
  { apply (split_join x26); [discriminate|]. apply Forall_forall. intros x Hx. apply in_map_iff in Hx as (q & <- & _). apply pair_lacks. }
  rewrite S. clear S. assert (F : forall l, filter (fun q => match q with [] => false | _ => true end) (map form_pair l) = map form_pair l).
  { induction l as [|q l IH]; [reflexivity|]. cbn [map filter]. destruct (form_pair q) eqn:Q; [|now rewrite IH].
    unfold form_pair in Q. apply app_eq_nil in Q as [_ Q]. discriminate. }
  rewrite F, map_map. generalize (p :: ps). clear. intros l. induction l as [|q l IH]; [reflexivity|]. cbn [map]. rewrite IH. f_equal.
  unfold form_pair. cbn [app]. rewrite cut_at by apply value_lacks. rewrite !unform_value. now destruct q.
Qed.

(** * C65 *)
(** Whatever the credentials contain, the endpoint asked reads from the request
    exactly: the client id, the scopes separated by single spaces, the secret, the
    grant type client_credentials, and the audience if one is configured. *)
Theorem C65_request : forall id secret authority scopes audience,
  read_form (token_body (oauth_new id secret authority scopes audience)) =
    [(str "client_id", id); (str "scope", join (str " ") scopes); (str "client_secret", secret); (str "grant_type", str "client_credentials")] ++
    (match audience with Some x => [(str "audience", x)] | None => [] end) /\
  token_url (oauth_new id secret authority scopes audience) = authority ++ str "/oauth2/v2.0/token".
Proof. intros id secret authority scopes audience. split; [apply read_form_form|reflexivity]. Qed.
(** Its bytes are only letters, digits and [*-._+%&=]. *)
Definition wire_safe (x : byte) : bool :=
  existsb (byte_eqb x) (str "ABCDEFGHIJKLMNOPQRSTUVWXYZabcdefghijklmnopqrstuvwxyz0123456789*-._+%&=").
Lemma form_byte_safe x : forallb wire_safe (form_byte x) = true.
Proof. destruct x; vm_compute; reflexivity. Qed.
Lemma form_value_safe v : forallb wire_safe (form_value v) = true.
Proof. induction v as [|x v IH]; [reflexivity|]. cbn [form_value flat_map]. rewrite forallb_app, form_byte_safe. exact IH. Qed.
Theorem C65_plain_ascii : forall a x, In x (token_body a) -> wire_safe x = true.
Proof.
  intros a x. unfold token_body, form. generalize (token_fields a). intros ps. 
  assert (P : forall p, forallb wire_safe (form_pair p) = true).
  { intros p. unfold form_pair. rewrite !forallb_app, !form_value_safe. reflexivity. }
  enough (Q : forallb wire_safe (join (str "&") (map form_pair ps)) = true) by (rewrite forallb_forall in Q; apply Q).
  induction ps as [|p ps IH]; [reflexivity|]. destruct ps as [|q ps]; [exact (P p)|].
  change (join (str "&") (map form_pair (p :: q :: ps))) with (form_pair p ++ str "&" ++ join (str "&") (map form_pair (q :: ps))).
  rewrite !forallb_app, P, IH. reflexivity.
Qed.
(** The scopes are recovered from the request as configured, if there is one and none
    contains a space; scopes containing spaces cannot be told from several scopes. *)
Theorem C65_scopes : forall id secret authority scopes audience,
  scopes <> [] -> (forall x, In x scopes -> ~ In x20 x) ->
  exists v, In (str "scope", v) (read_form (token_body (oauth_new id secret authority scopes audience))) /\ split x20 v = scopes.
Proof.
  intros id secret authority scopes audience Hn Hs. exists (join (str " ") scopes). rewrite (proj1 (C65_request id secret authority scopes audience)). split.
  - right. now left.
  - apply (split_join x20); [exact Hn|]. apply Forall_forall. exact Hs.
Qed.
(** Different credentials never make the same request. *)
Theorem C65_injective : forall a b, token_body a = token_body b ->
  oa_id a = oa_id b /\ oa_secret a = oa_secret b /\ oa_scope a = oa_scope b /\ oa_audience a = oa_audience b.
Proof.
  intros a b H. unfold token_body in H. apply (f_equal read_form) in H. rewrite !read_form_form in H. unfold token_fields in H. cbn [app] in H.
  injection H as H1 H2 H3 H4. destruct (oa_audience a), (oa_audience b); try discriminate; [injection H4 as ->|]; auto.
Qed.
Print Assumptions C65_request.
Print Assumptions C65_plain_ascii.
Print Assumptions C65_scopes.
Print Assumptions C65_injective.
(** A secret with every separator in it, a two-byte character in the id, two scopes. *)
Definition x_oauth : oauth := oauth_new (str "me" ++ [n2b 195; n2b 169]) (str "a&b=c%20+ d") (str "https://login/t") [str "s/.default"; str "openid"] (Some (str "urn:x")).
Example C65_meets :
  token_body x_oauth = str "client_id=me%C3%A9&scope=s%2F.default+openid&client_secret=a%26b%3Dc%2520%2B+d&grant_type=client_credentials&audience=urn%3Ax" /\
  token_url x_oauth = str "https://login/t/oauth2/v2.0/token" /\
  token_body (oauth_new [] [] [] [] None) = str "client_id=&scope=&client_secret=&grant_type=client_credentials" /\
  split x20 (oa_scope x_oauth) = [str "s/.default"; str "openid"].
Proof. repeat split; vm_compute; reflexivity. Qed.
(** Why the scopes must not contain spaces: one scope or two. *)
Example C65_spaces_in_a_scope :
  token_body (oauth_new [] [] [] [str "a b"] None) = token_body (oauth_new [] [] [] [str "a"; str "b"] None).
Proof. reflexivity. Qed.
