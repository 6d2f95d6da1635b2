(** C81: recording the keyboards of a language in its document. *)
From Coq Require Import String Sorted Permutation.
From Verif Require Import Py PyFacts M_LdmlBase M_Collation M_Serialize M_Normalise M_Drafts M_Paths M_Keymans.
From Verif Require Import T_Drafts T_Paths T_PathText T_Ensure.
Local Open Scope list_scope.
Local Open Scope nat_scope.

(** * Specification *)

(** the steps of the path to the URL of a keyboard *)
Definition url_steps (id : pystr) : list pathstep :=
  [(lit "special", []); (lit "sil:external-resources", []);
   (lit "sil:kbd", [(lit "id", id); (lit "type", lit "kmp")]); (lit "sil:url", [])].

(** [url_at ns root id w]: the children with the indices [w], from the root down, lead to a URL
    element of the keyboard [id] *)
Definition url_at (ns : list (pystr * pystr)) (root : lnode) (id : pystr) (w : list nat) : Prop :=
  walk root (map (expanded ns) (url_steps id)) w.
(** the first one in the document *)
Definition first_url (ns : list (pystr * pystr)) (root : lnode) (id : pystr) (w : list nat) : Prop :=
  url_at ns root id w /\ forall w', url_at ns root id w' -> w' = w \/ before_in_doc w w'.

(** ids that can stand in a path *)
Definition plain_id (id : pystr) : Prop := without [47; 93; 10]%N id.
(** the double quote, the at sign and the letters d and e are not white space *)
Definition no_space (ws : N -> bool) : Prop := forall c, In c [34; 64; 100; 101]%N -> ws c = false.
(** no prefix of a namespace begins with a brace *)
Definition plain_prefixes (ns : list (pystr * pystr)) : Prop :=
  forall u p, In (u, p) ns -> forall p', p <> 123%N :: p'.

(** * Every element of a document *)
Definition everywhere (Q : lnode -> Prop) (root : lnode) : Prop :=
  forall q x, at_place root q = Some x -> Q x.

(** [own]: the element apart from its children and alternates *)
Definition same_own (x y : lnode) : Prop := same_element x y /\ lah y = lah x.

Lemma everywhere_put_at (Q : lnode -> Prop) p : (forall x y, same_own x y -> Q x -> Q y) -> forall root n x,
  everywhere Q root -> at_place root p = Some n -> everywhere Q x -> everywhere Q (put_at root p x).
Proof.
  intros QS. induction p as [|[i|k] p IH]; intros root n x E; cbn [at_place put_at]; [auto| |].
  - destruct (nth_error (lkids root) i) as [c|] eqn:Ei; [|discriminate]. intros H Ex.
    assert (everywhere Q c) as Ec. { intros q y Hq. apply (E (K i :: q)). cbn [at_place]. now rewrite Ei. }
    specialize (IH c n x Ec H Ex).
    destruct (set_kids_fields root (replace_nth i (put_at c p x) (lkids root))) as (F1 & F2 & F3 & F4 & _ & F6 & F7).
    intros [|[j|k] q] y; cbn [at_place].
    + intro E'. injection E' as <-. apply (QS root); [repeat split; assumption|]. now apply (E []).
    + rewrite F7, nth_error_replace. destruct (Nat.eqb_spec i j) as [<-|Nij].
      * rewrite Ei. apply IH.
      * intro Hy. apply (E (K j :: q)). exact Hy.
    + rewrite F6. intro Hy. apply (E (A k :: q)). exact Hy.
  - destruct (lalts root) as [alts|] eqn:Ea; [|discriminate].
    destruct (dget streq alts k) as [c|] eqn:Ei; [|discriminate]. intros H Ex.
    assert (everywhere Q c) as Ec. { intros q y Hq. apply (E (A k :: q)). cbn [at_place]. now rewrite Ea, Ei. }
    specialize (IH c n x Ec H Ex).
    destruct (set_alts_fields root (Some (dset streq alts k (put_at c p x)))) as (F1 & F2 & F3 & F4 & _ & F6 & F7).
    intros [|[j|k'] q] y; cbn [at_place].
    + intro E'. injection E' as <-. apply (QS root); [repeat split; assumption|]. now apply (E []).
    + rewrite F7. intro Hy. apply (E (K j :: q)). exact Hy.
    + rewrite F6, (dget_dset _ streq_spec). destruct (streq_spec k' k) as [->|Nk].
      * apply IH.
      * intro Hy. apply (E (A k' :: q)). cbn [at_place]. now rewrite Ea.
Qed.
Lemma everywhere_at (Q : lnode -> Prop) root p n : everywhere Q root -> at_place root p = Some n -> everywhere Q n.
Proof. intros E H q x Hq. apply (E (p ++ q)). rewrite at_place_app, H. exact Hq. Qed.
Lemma everywhere_append (Q : lnode -> Prop) n e : (forall x y, same_own x y -> Q x -> Q y) ->
  everywhere Q n -> leaf_node e -> Q e -> everywhere Q (set_kids n (lkids n ++ [e])).
Proof.
  intros QS E L He q y Hy. destruct (at_place n q) as [x|] eqn:Eq.
  - destruct q as [|[j|k] q].
    + cbn in Hy, Eq. injection Hy as <-. apply (QS n); [|apply (E []); reflexivity].
      destruct (set_kids_fields n (lkids n ++ [e])) as (F1 & F2 & F3 & F4 & _). repeat split; assumption.
    + cbn [at_place] in *. destruct (set_kids_fields n (lkids n ++ [e])) as (_ & _ & _ & _ & _ & _ & F7). rewrite F7 in Hy.
      destruct (nth_error (lkids n) j) as [c|] eqn:Ec; [|discriminate].
      rewrite nth_error_app1 in Hy by (apply nth_error_Some; congruence). rewrite Ec in Hy.
      apply (E (K j :: q)). cbn [at_place]. now rewrite Ec.
    + cbn [at_place] in *. destruct (set_kids_fields n (lkids n ++ [e])) as (_ & _ & _ & _ & _ & F6 & _). rewrite F6 in Hy.
      apply (E (A k :: q)). exact Hy.
  - destruct (append_new n e q y L Hy Eq) as [_ ->]. exact He.
Qed.

(** * Changing the text of an element *)
Lemma set_text_fields x t : ltag (set_text x t) = ltag x /\ lattrs (set_text x t) = lattrs x /\
  ltext (set_text x t) = t /\ lah (set_text x t) = lah x /\ lalts (set_text x t) = lalts x /\ lkids (set_text x t) = lkids x.
Proof. destruct x. cbn. auto 10. Qed.
Lemma replace_nth_length {X} i (x : X) l : List.length (replace_nth i x l) = List.length l.
Proof. revert i. induction l as [|y l IH]; intros [|i]; cbn; try reflexivity. now rewrite IH. Qed.

(** changing the text at [p]: the element at [p] has the new text, and everything else is as it was *)
Lemma retext p t : forall root n, at_place root p = Some n ->
  let root' := put_at root p (set_text n t) in
  (forall q x, at_place root q = Some x -> exists y, at_place root' q = Some y /\ ltag y = ltag x /\ lattrs y = lattrs x /\
      (q = p /\ ltext y = t \/ q <> p /\ ltext y = ltext x)) /\
  (forall q, at_place root q = None -> at_place root' q = None).
Proof.
  induction p as [|[i|k] p IH]; intros root n; cbn [at_place put_at].
  - intro E. injection E as ->. destruct (set_text_fields n t) as (F1 & F2 & F3 & _ & F5 & F6). split.
    + intros [|[j|k] q] x; cbn [at_place]; rewrite ?F5, ?F6; intro H.
      * injection H as <-. eexists. split; [reflexivity|]. auto.
      * exists x. split; [assumption|]. split; [reflexivity|]. split; [reflexivity|]. right. split; [discriminate|reflexivity].
      * exists x. split; [assumption|]. split; [reflexivity|]. split; [reflexivity|]. right. split; [discriminate|reflexivity].
    + intros [|[j|k] q]; cbn [at_place]; rewrite ?F5, ?F6; auto. discriminate.
  - destruct (nth_error (lkids root) i) as [c|] eqn:Ei; [|discriminate]. intros H. destruct (IH c n H) as [I1 I2].
    set (c' := put_at c p (set_text n t)) in *.
    destruct (set_kids_fields root (replace_nth i c' (lkids root))) as (F1 & F2 & F3 & F4 & _ & F6 & F7).
    split.
    + intros [|[j|k] q] x; cbn [at_place]; rewrite ?F6, ?F7; intro Hx.
      * injection Hx as <-. eexists. split; [reflexivity|]. split; [exact F1|]. split; [exact F2|]. right. split; [discriminate|exact F3].
      * rewrite nth_error_replace. destruct (Nat.eqb_spec i j) as [<-|Nij].
        -- rewrite Ei in *. destruct (I1 q x Hx) as (y & Hy & G1 & G2 & G3). exists y. split; [assumption|]. split; [assumption|]. split; [assumption|].
           destruct G3 as [[-> G]|[G3 G]]; [left; auto|right; split; [congruence|assumption]].
        -- exists x. split; [assumption|]. split; [reflexivity|]. split; [reflexivity|]. right. split; [congruence|reflexivity].
      * exists x. split; [assumption|]. split; [reflexivity|]. split; [reflexivity|]. right. split; [discriminate|reflexivity].
    + intros [|[j|k] q]; cbn [at_place]; rewrite ?F6, ?F7; auto; [discriminate|].
      rewrite nth_error_replace. destruct (Nat.eqb_spec i j) as [<-|Nij]; [|auto]. rewrite Ei. apply I2.
  - destruct (lalts root) as [alts|] eqn:Ea; [|discriminate].
    destruct (dget streq alts k) as [c|] eqn:Ei; [|discriminate]. intros H. destruct (IH c n H) as [I1 I2].
    set (c' := put_at c p (set_text n t)) in *.
    destruct (set_alts_fields root (Some (dset streq alts k c'))) as (F1 & F2 & F3 & F4 & _ & F6 & F7).
    split.
    + intros [|[j|k'] q] x; cbn [at_place]; rewrite ?F6, ?F7; intro Hx.
      * injection Hx as <-. eexists. split; [reflexivity|]. split; [exact F1|]. split; [exact F2|]. right. split; [discriminate|exact F3].
      * exists x. split; [assumption|]. split; [reflexivity|]. split; [reflexivity|]. right. split; [discriminate|reflexivity].
      * rewrite Ea in Hx. rewrite (dget_dset _ streq_spec). destruct (streq_spec k' k) as [->|Nk].
        -- rewrite Ei in Hx. destruct (I1 q x Hx) as (y & Hy & G1 & G2 & G3). exists y. split; [assumption|]. split; [assumption|]. split; [assumption|].
           destruct G3 as [[-> G]|[G3 G]]; [left; auto|right; split; [congruence|assumption]].
        -- exists x. split; [assumption|]. split; [reflexivity|]. split; [reflexivity|]. right. split; [congruence|reflexivity].
    + intros [|[j|k'] q]; cbn [at_place]; rewrite ?F6, ?F7; auto; [discriminate|].
      rewrite Ea, (dget_dset _ streq_spec). destruct (streq_spec k' k) as [->|Nk]; [|auto]. rewrite Ei. apply I2.
Qed.
(** changing it to what it was changes nothing *)
Lemma replace_nth_id {X} i (x : X) l : nth_error l i = Some x -> replace_nth i x l = l.
Proof. revert i. induction l as [|y l IH]; intros [|i]; cbn; try discriminate; [congruence|]. intro H. now rewrite IH. Qed.
Lemma dset_id {V} (d : list (pystr * V)) k v : dget streq d k = Some v -> dset streq d k v = d.
Proof.
  induction d as [|[k' v'] d IH]; cbn; [discriminate|]. destruct (streq_spec k k') as [->|]; [congruence|].
  intro H. now rewrite IH.
Qed.
Lemma put_at_id p : forall root n, at_place root p = Some n -> put_at root p n = root.
Proof.
  induction p as [|[i|k] p IH]; intros root n; cbn [at_place put_at]; [congruence| |].
  - destruct (nth_error (lkids root) i) as [c|] eqn:Ei; [|discriminate]. intro H. rewrite (IH c n H).
    rewrite replace_nth_id by assumption. destruct root; reflexivity.
  - destruct (lalts root) as [alts|] eqn:Ea; [|discriminate]. destruct (dget streq alts k) as [c|] eqn:Ei; [|discriminate].
    intro H. rewrite (IH c n H), dset_id by assumption. destruct root; cbn in *. now subst.
Qed.

(** * Reading the path *)
Lemma key_of_brace ns p : plain_prefixes ns -> M_LdmlBase.key_of ns (123%N :: p) = None.
Proof.
  intro H. unfold plain_prefixes in H. induction ns as [|[u q] ns IH]; cbn [M_LdmlBase.key_of]; [reflexivity|].
  destruct (streq_spec (123%N :: p) q) as [E|_]; [|apply IH; intros u' p' Hin; apply (H u'); now right].
  exfalso. apply (H u q (or_introl eq_refl) p). congruence.
Qed.
Lemma reverse_twice ns t : plain_prefixes ns -> reverse_localns ns (reverse_localns ns t) = reverse_localns ns t.
Proof.
  intro P. unfold reverse_localns at 2 3. destruct (partition1 58%N t) as [[[|c nst] rest]|] eqn:E.
  - unfold reverse_localns. now rewrite E.
  - destruct (M_LdmlBase.key_of ns (c :: nst)) as [k|] eqn:Ek.
    + unfold reverse_localns. destruct (partition1 58%N (123%N :: k ++ 125%N :: rest)) as [[a b]|] eqn:E2; [|reflexivity].
      cbn in E2. destruct (partition1 58%N (k ++ 125%N :: rest)) as [[a' b']|]; [|discriminate].
      injection E2 as <- <-. now rewrite key_of_brace.
    + unfold reverse_localns. now rewrite E, Ek.
  - unfold reverse_localns. now rewrite E.
Qed.

Lemma url_path_shown id : url_path id = show_path (url_steps id).
Proof.
  unfold url_path, show_path, url_steps, show_step, show_test. cbn [map join fst snd flat_map].
  rewrite !app_nil_r, <- !app_assoc. reflexivity.
Qed.
Definition esteps (ns : list (pystr * pystr)) (id : pystr) : list pathstep := map (expanded ns) (url_steps id).

Lemma without_dec bad s : forallb (fun c => negb (existsb (N.eqb c) s)) bad = true -> without bad s.
Proof.
  intros H c Hc Hin. rewrite forallb_forall in H. specialize (H c Hc). apply negb_true_iff in H.
  assert (existsb (N.eqb c) s = true) by (apply existsb_exists; exists c; split; [assumption|apply N.eqb_refl]). congruence.
Qed.
Lemma url_path_read ws ns id : no_space ws -> plain_id id ->
  read_path ws ns (url_path id) = Ok (esteps ns id).
Proof.
  intros W P. assert (ws 100%N = false /\ ws 101%N = false) as [W1 W2] by (split; apply W; cbn; auto).
  rewrite url_path_shown. apply C26_read_back; [apply W; cbn; auto|apply W; cbn; auto|unfold url_steps; intro X; inversion X|].
  assert (forall t, t <> [] -> forallb (fun c => negb (existsb (N.eqb c) t)) [47; 91]%N = true ->
    writable ws (t, []) /\ NoDup (dkeys (snd (expanded ns (t, []))))) as Plain.
  { intros t Nt Ht. split; [|constructor]. split; [exact Nt|]. split; [now apply without_dec|]. intros k v []. }
  unfold url_steps. constructor; [|constructor; [|constructor; [|constructor; [|constructor]]]];
    try (apply Plain; [intro X; vm_compute in X; discriminate X|vm_compute; reflexivity]).
  split.
  - split; [intro X; vm_compute in X; discriminate X|]. split; [apply without_dec; vm_compute; reflexivity|].
    intros k v Hkv. cbn [snd In] in Hkv. destruct Hkv as [E|[E|[]]]; injection E as <- <-.
    + split; [apply without_dec; vm_compute; reflexivity|]. split; [|exact P].
      intros k' c E. change (lit "id") with ([105%N] ++ [100%N]) in E. apply app_inj_tail in E as [_ <-]. assumption.
    + split; [apply without_dec; vm_compute; reflexivity|]. split; [|apply without_dec; vm_compute; reflexivity].
      intros k' c E. change (lit "type") with ([116%N; 121%N; 112%N] ++ [101%N]) in E. apply app_inj_tail in E as [_ <-]. assumption.
  - cbn [expanded snd map fst dkeys]. constructor; [|constructor; [intros []|constructor]].
    intros [H|[]]. vm_compute in H. discriminate.
Qed.
Lemma esteps_creatable ns id : plain_prefixes ns -> Forall (creatable ns) (esteps ns id).
Proof.
  intro P. unfold esteps, url_steps. cbn [map].
  constructor; [|constructor; [|constructor; [|constructor; [|constructor]]]]; unfold expanded, creatable; cbn [fst snd map dkeys];
    (split; [now apply reverse_twice|]).
  1,2,4: split; [constructor|intros []].
  split.
  - constructor; [|constructor; [intros []|constructor]]. intros [H|[]]. vm_compute in H. discriminate.
  - intros [H|[H|[]]]; vm_compute in H; discriminate.
Qed.

(** * Walks to the URL of a keyboard *)
Lemma expanded_nodot ns t a : t <> lit "." -> partition1 58%N (lit ".") = None -> fst (expanded ns (t, a)) <> lit ".".
Proof.
  intros Nt _. cbn [expanded fst]. unfold reverse_localns.
  destruct (partition1 58%N t) as [[[|c n] r]|]; try assumption.
  destruct (M_LdmlBase.key_of ns (c :: n)); [|assumption]. discriminate.
Qed.
Lemma walk_inv n st steps w : fst st <> lit "." -> walk n (st :: steps) w ->
  exists i c w', w = i :: w' /\ nth_error (lkids n) i = Some c /\ ltag c = fst st /\
    (forall k v, In (k, v) (snd st) -> attr_is c k v) /\ walk c steps w'.
Proof.
  intros Nd W. inversion W as [|n0 a s w0 W1 E|n0 t a s i c w1 Nt E T A W1]; subst; cbn [fst snd] in *; [congruence|].
  exists i, c, w1. auto.
Qed.
Lemma url_walk ns root id w : url_at ns root id w ->
  exists i j k l c, w = [i; j; k; l] /\ at_place root [K i; K j; K k] = Some c /\ attr_is c (lit "id") id.
Proof.
  assert (forall s : pystr, streq s (lit ".") = false -> s <> lit ".") as ND.
  { intros s E ->. rewrite streq_refl in E. discriminate. }
  unfold url_at, url_steps. cbn [map]. intro W.
  apply walk_inv in W as (i & c1 & w1 & -> & E1 & _ & _ & W);
    [|apply expanded_nodot; [apply ND; vm_compute; reflexivity|reflexivity]].
  apply walk_inv in W as (j & c2 & w2 & -> & E2 & _ & _ & W);
    [|apply expanded_nodot; [apply ND; vm_compute; reflexivity|reflexivity]].
  apply walk_inv in W as (k & c3 & w3 & -> & E3 & _ & A3 & W);
    [|apply expanded_nodot; [apply ND; vm_compute; reflexivity|reflexivity]].
  apply walk_inv in W as (l & c4 & w4 & -> & E4 & _ & _ & W);
    [|apply expanded_nodot; [apply ND; vm_compute; reflexivity|reflexivity]].
  inversion W; subst. exists i, j, k, l, c3. split; [reflexivity|]. split.
  - cbn [at_place]. now rewrite E1, E2, E3.
  - apply A3. cbn [expanded snd map fst]. left. reflexivity.
Qed.
Lemma attr_is_inj c k v v' : attr_is c k v -> attr_is c k v' -> v = v'.
Proof. intros [H|[H ->]] [H'|[H' ->]]; congruence. Qed.
Lemma url_unique ns root id id' w : url_at ns root id w -> url_at ns root id' w -> id = id'.
Proof.
  intros H H'. destruct (url_walk _ _ _ _ H) as (i & j & k & l & c & -> & Hc & A).
  destruct (url_walk _ _ _ _ H') as (i' & j' & k' & l' & c' & E & Hc' & A'). injection E as <- <- <- <-.
  assert (c' = c) by congruence. subst. eapply attr_is_inj; eassumption.
Qed.
Lemma before_asym u v : before_in_doc u v -> before_in_doc v u -> False.
Proof. induction 1; intro H'; inversion H'; subst; auto; lia. Qed.
Lemma first_unique ns root id w w' : first_url ns root id w -> first_url ns root id w' -> w = w'.
Proof.
  intros [H F] [H' F']. destruct (F w' H') as [->|B]; [reflexivity|]. destruct (F' w H) as [->|B']; [reflexivity|].
  exfalso. eapply before_asym; eassumption.
Qed.

(** walks only look at tags and attributes *)
Lemma walk_same_shape steps : forall root root' p n n' w,
  (forall q x, at_place root q = Some x -> exists y, at_place root' q = Some y /\ ltag y = ltag x /\ lattrs y = lattrs x) ->
  at_place root p = Some n -> at_place root' p = Some n' -> walk n steps w -> walk n' steps w.
Proof.
  induction steps as [|st steps IH]; intros root root' p n n' w H Hn Hn' W;
    [inversion W; constructor|inversion W as [|n0 a s w0 W1 E|n0 t a s i c w1 Nt Ei0 T0 A0 W1]; subst].
  - constructor. eapply IH; eassumption.
  - assert (at_place root (p ++ [K i]) = Some c) as Hc by (rewrite at_place_app, Hn; cbn; now rewrite Ei0).
    destruct (H _ _ Hc) as (c' & Hc' & T & At). pose proof Hc' as Hk. rewrite at_place_app, Hn' in Hk. cbn in Hk.
    destruct (nth_error (lkids n') i) as [c2|] eqn:Ei; [|discriminate]. injection Hk as ->.
    apply walk_step with (c := c'); auto.
    + intros k v Hin. specialize (A0 k v Hin). unfold attr_is, lget in *. now rewrite At.
    + eapply (IH root root' (p ++ [K i]) c c'); eassumption.
Qed.

(** * Specification of what is done to a document *)
Record recorded (ns : list (pystr * pystr)) (ids : list pystr) (root root' : lnode) : Prop := {
  (* every keyboard has its URL in the first place where one looks for it *)
  rc_url : forall id, In id ids -> exists w x, first_url ns root' id w /\
    at_place root' (map K w) = Some x /\ ltext x = Some (download id);
  (* every element is still there, with its tag, its attributes and, unless it is one of those, its text *)
  rc_kept : forall q x, at_place root q = Some x -> exists y, at_place root' q = Some y /\
    ltag y = ltag x /\ lattrs y = lattrs x /\
    (ltext y = ltext x \/ exists id w, In id ids /\ first_url ns root' id w /\ q = map K w);
  (* every new element is on the way to one of those, is marked as generated, and has a text only at the end *)
  rc_new : forall q y, at_place root' q = Some y -> at_place root q = None ->
    lget y (lit "draft") = Some (lit "generated") /\
    exists id w r, In id ids /\ first_url ns root' id w /\ map K w = q ++ r /\ (r <> [] -> ltext y = None);
  (* what was found for a keyboard is what is found now *)
  rc_first : forall id w, first_url ns root id w -> first_url ns root' id w;
  (* nothing changes in what is found for other keyboards *)
  rc_other : forall id w, ~ In id ids -> (url_at ns root' id w <-> url_at ns root id w)
}.

Section Proof.
  Variable ws : N -> bool.
  Variable hasher : pystr -> Z.
  Variable m : meta.
  Variable useDrafts : bool.
  Variable ud uid : option pystr.
  Variable dd : pystr.
  Variable ns : list (pystr * pystr).
  Notation unify := (unify hasher m dd useDrafts ud uid ns).
  Notation ensure_path := (ensure_path ws hasher m dd useDrafts ud uid ns).
  Notation findall := (findall ws hasher m dd useDrafts ud uid ns).
  Notation add_inserted_node := (add_inserted_node hasher m dd useDrafts ud uid ns).
  Notation add_keyboards := (add_keyboards ws hasher m useDrafts ud uid dd ns).
  Notation gen := (lit "generated").
  Notation new_hash := (new_hash hasher m useDrafts ud (Some gen)).
  Notation keys_decide := (keys_decide hasher m useDrafts ud).

  (** the key of an element decides whether it matches one of the steps *)
  Definition decided (steps : list pathstep) (x : lnode) : Prop :=
    useDrafts = true -> forall st, In st steps -> lah x = new_hash st -> step_match st x = true.
  Lemma decided_same steps x y : same_own x y -> decided steps x -> decided steps y.
  Proof.
    intros [S Hh] D U st Hin E. rewrite (step_match_same _ _ _ S). apply (D U st Hin). congruence.
  Qed.
  (** the keys of different steps are different *)
  Definition no_collision (steps : list pathstep) : Prop :=
    useDrafts = true -> forall s t, In s steps -> In t steps -> new_hash s = new_hash t -> s = t.

  Lemma addnode_key pn st alt : creatable ns st ->
    (useDrafts = true -> forall c, In c (lkids pn) -> lah c <> new_hash st) ->
    exists ah ch, (useDrafts = true -> ah = new_hash st) /\
      addnode hasher m dd useDrafts ud uid ns pn (fst st) (snd st) [(lit "draft", gen)] alt
      = Ok (set_kids pn (lkids pn ++ [LNode (fst st) (new_attrs useDrafts ud (Some gen) st) None ah ch None []]),
            (List.length (lkids pn), Primary)).
  Proof.
    intros (Er & _ & _) Nm. unfold addnode. cbn [fold_left fst snd]. rewrite Er.
    unfold T_Ensure.new_hash, new_attrs in *. destruct useDrafts eqn:Eu; [|eexists _, _; split; [discriminate|reflexivity]].
    cbv zeta. cbv zeta in Nm.
    match goal with |- context [calc_hashes hasher m true (fst st) ?a None []] =>
      set (at_ := a) in *; destruct (calc_hashes hasher m true (fst st) at_ None []) as [ah ch] eqn:Eh end.
    rewrite index_where_none.
    - exists ah, ch. split; [intros _; reflexivity|reflexivity].
    - intros x Hx. destruct (Z.eqb_spec (lah x) ah) as [E|_]; [|reflexivity].
      exfalso. apply (Nm eq_refl x Hx). exact E.
  Qed.

  (** what is created *)
  Definition made (st : pathstep) (x : lnode) : Prop :=
    leaf_node x /\ ltag x = fst st /\ lget x (lit "draft") = Some gen /\ step_match st x = true /\
    (useDrafts = true -> lah x = new_hash st).
  Lemma made_decided steps st x : no_collision steps -> In st steps -> made st x -> decided steps x.
  Proof.
    intros NC Hst (_ & _ & _ & M & Hh) U t Ht E. assert (st = t) as <-; [|exact M].
    apply (NC U st t Hst Ht). rewrite <- E. now rewrite Hh.
  Qed.

  (** following a path, creating what is missing *)
  Lemma unify_made all alt : no_collision all -> forall steps, incl steps all -> Forall (creatable ns) steps ->
    forall root curr parent root' l,
    everywhere (decided all) root -> Forall (fun p => at_place root p <> None) curr -> (exists c, curr = parent :: c) ->
    unify true None (Some gen) alt None steps root curr parent = Ok (root', l) ->
    everywhere (decided all) root' /\
    (forall q x, at_place root q = Some x -> exists y, at_place root' q = Some y /\ same_element x y) /\
    (forall q y, at_place root' q = Some y -> at_place root q = None -> lget y (lit "draft") = Some gen).
  Proof.
    intros NC. induction steps as [|st steps IH]; intros Inc Fc root curr parent root' l Ev V [cs Ec] H; cbn [M_Paths.unify] in H.
    - injection H as <- <-. split; [assumption|]. split; [intros q x Hq; exists x; split; [assumption|apply same_refl]|congruence].
    - inversion Fc as [|? ? Hc Fc']; subst.
      assert (incl steps all) as Inc' by (intros s Hs; apply Inc; now right).
      set (new := if streq (fst st) (lit ".") then parent :: cs else flat_map (matching_kids root st) (parent :: cs)) in *.
      assert (Forall (fun p => at_place root p <> None) new) as Vn.
      { subst new. destruct (streq (fst st) (lit ".")); [assumption|apply matching_kids_all]. }
      assert (match new with
              | p :: _ => unify true None (Some gen) alt None steps root new p
              | [] => do r <- add_inserted_node root None (Some gen) None parent st alt;
                      unify true None (Some gen) alt None steps (fst r) [snd r] (snd r)
              end = Ok (root', l)) as H'.
      { destruct steps; exact H. }
      clear H. destruct new as [|p new'] eqn:En.
      + assert (at_place root parent <> None) as Vp by (inversion V; assumption).
        destruct (at_place root parent) as [pn|] eqn:Ep; [|congruence].
        assert (streq (fst st) (lit ".") = false /\ matching_kids root st parent = []) as [Nd Em].
        { subst new. destruct (streq (fst st) (lit ".")); [discriminate|]. split; [reflexivity|].
          cbn [flat_map] in En. now apply app_eq_nil in En as [En _]. }
        destruct (addnode_key pn st alt Hc) as (ah & ch & Eah & Ea).
        { intros U c Hin E. apply In_nth_error in Hin as [i Hi].
          assert (step_match st c = true) as M.
          { apply (Ev (parent ++ [K i]) c); [rewrite at_place_app, Ep; cbn; now rewrite Hi|assumption|apply Inc; now left|assumption]. }
          unfold matching_kids in Em. rewrite Ep in Em. apply map_eq_nil in Em.
          assert (In (i, c) (filter (fun ic : nat * lnode => step_match st (snd ic))
                       (combine (seq 0 (List.length (lkids pn))) (lkids pn)))) as Hf.
          { apply filter_In. split; [|exact M]. now apply in_items. }
          rewrite Em in Hf. destruct Hf. }
        set (e := LNode (fst st) (new_attrs useDrafts ud (Some gen) st) None ah ch None []) in *.
        assert (made st e) as Me.
        { split; [split; reflexivity|]. split; [reflexivity|]. split; [apply new_attrs_draft|].
          split; [eapply new_attrs_match; exact Hc|exact Eah]. }
        assert (add_inserted_node root None (Some gen) None parent st alt
                = Ok (put_at root parent (set_kids pn (lkids pn ++ [e])), parent ++ [K (List.length (lkids pn))])) as E1.
        { unfold M_Paths.add_inserted_node. rewrite Ep, Ea. reflexivity. }
        rewrite E1 in H'. cbn [bind fst snd] in H'.
        destruct (add_only hasher dd root parent pn e None Ep (proj1 Me) eq_refl) as (O1 & P1 & N1).
        set (root1 := put_at root parent (set_kids pn (lkids pn ++ [e]))) in *.
        destruct (IH Inc' Fc' root1 [parent ++ [K (List.length (lkids pn))]] (parent ++ [K (List.length (lkids pn))]) root' l)
          as (R1 & R2 & R3); [| |eauto|exact H'|].
        * unfold root1. apply everywhere_put_at with (n := pn); [apply decided_same|assumption|assumption|].
          apply everywhere_append; [apply decided_same|eapply everywhere_at; eassumption|apply Me|].
          eapply made_decided; [exact NC|apply Inc; now left|exact Me].
        * repeat constructor. rewrite P1. discriminate.
        * split; [assumption|]. split.
          -- intros q x Hq. destruct (oa_kept _ _ _ _ O1 q x Hq) as (y & Hy & Sy). destruct (R2 q y Hy) as (z & Hz & Sz).
             exists z. split; [assumption|]. eapply same_trans; eassumption.
          -- intros q y Hy Hq. destruct (at_place root1 q) as [x|] eqn:Eq; [|eapply R3; eassumption].
             destruct (N1 q x Eq Hq) as [-> ->]. destruct (R2 _ _ Eq) as (z & Hz & (_ & Az & _)).
             assert (z = y) by congruence. subst z. unfold lget. rewrite Az. apply Me.
      + apply (IH Inc' Fc' root (p :: new') p root' l); eauto.
  Qed.

  Lemma below_root w : below [] w = map K w. Proof. reflexivity. Qed.
  Lemma mapK_inj w w' : map K w = map K w' -> w = w'.
  Proof.
    revert w'. induction w as [|i w IH]; intros [|j w'] E; try discriminate; [reflexivity|].
    cbn in E. injection E as -> E. now rewrite (IH w' E).
  Qed.
  Lemma url_length root id w : url_at ns root id w -> List.length w = 4.
  Proof. intro H. destruct (url_walk _ _ _ _ H) as (i & j & k & l & c & -> & _). reflexivity. Qed.

  Section Steps.
    Hypothesis Hws : no_space ws.
    Hypothesis Hns : plain_prefixes ns.
    Variable all : list pystr.                (* the ids that occur *)
    Hypothesis Hplain : Forall plain_id all.
    Notation asteps := (flat_map (esteps ns) all).
    Hypothesis Hcol : no_collision asteps.

    (** the places the search returns, in order *)
    Lemma found_first root id l : plain_id id ->
      findall root [] (url_path id) = Ok (root, map (below []) l) ->
      (forall w, In w l <-> url_at ns root id w) /\ StronglySorted before_in_doc l.
    Proof.
      intros P E. destruct (C26_found ws hasher m dd useDrafts ud uid ns root [] root (url_path id) (esteps ns id) None None None None
        eq_refl (url_path_read ws ns id Hws P)) as (l' & E' & Hl & Sl).
      unfold M_Paths.findall in E. rewrite E' in E. injection E as E.
      assert (l' = l) as <-; [|split; assumption].
      clear -E. revert l E. induction l' as [|w l' IH]; intros [|w2 l] E; try discriminate; [reflexivity|].
      cbn [map] in E. injection E as E1 E2. rewrite !below_root in E1. apply mapK_inj in E1. subst. f_equal. now apply IH.
    Qed.
    Lemma first_of_sorted root id w l : (forall w', In w' (w :: l) <-> url_at ns root id w') ->
      StronglySorted before_in_doc (w :: l) -> first_url ns root id w.
    Proof.
      intros Hl Sl. split; [apply Hl; now left|]. intros w' H'. apply Hl in H' as [->|H']; [now left|right].
      inversion Sl as [|? ? _ F]; subst. rewrite Forall_forall in F. now apply F.
    Qed.

    (** one keyboard *)
    Lemma one_keyboard root id ids : In id all -> everywhere (decided asteps) root ->
      exists root', add_keyboards (id :: ids) root = add_keyboards ids root' /\
        everywhere (decided asteps) root' /\ recorded ns [id] root root'.
    Proof.
      intros Hin Ev. pose proof Hplain as Fp. rewrite Forall_forall in Fp. pose proof (Fp id Hin) as P.
      pose proof (url_path_read ws ns id Hws P) as Hr.
      assert (incl (esteps ns id) asteps) as Inc.
      { intros st Hst. apply in_flat_map. exists id. split; assumption. }
      (* what the search or the creation gives *)
      assert (exists root1 w l, ensure_path root [] (url_path id) None (Some gen) None None false None = Ok (root1, map K w :: l) /\
        first_url ns root1 id w /\ everywhere (decided asteps) root1 /\
        (forall q x, at_place root q = Some x -> exists y, at_place root1 q = Some y /\ same_element x y) /\
        (forall q y, at_place root1 q = Some y -> at_place root q = None ->
           lget y (lit "draft") = Some gen /\ ltext y = None /\ exists r, map K w = q ++ r) /\
        (forall w', first_url ns root id w' -> first_url ns root1 id w') /\
        (forall id' w', id' <> id -> (url_at ns root1 id' w' <-> url_at ns root id' w'))) as (root1 & w & l & E & Fu & Ev1 & Kp & Nw & Fs & Ot).
      { destruct (walks root (esteps ns id)) as [|w0 wl] eqn:Ew.
        - (* created *)
          assert (forall w, ~ walk root (esteps ns id) w) as Nwk.
          { intros w W. apply walks_spec in W. rewrite Ew in W. destruct W. }
          destruct (C27_created ws hasher m dd useDrafts ud uid ns root [] root (url_path id) (esteps ns id) None (Some gen) None None
            eq_refl Hr Nwk (esteps_creatable ns id Hns)) as (root1 & p & E1 & E2 & O).
          { intros st Hst U q x Hq Hh. apply (Ev q x Hq U st (Inc st Hst) Hh). }
          pose proof E2 as E2'.
          destruct (C26_found ws hasher m dd useDrafts ud uid ns root1 [] root1 (url_path id) (esteps ns id) None None None None eq_refl Hr)
            as (l & El & Hl & Sl).
          unfold M_Paths.findall in E2'. rewrite El in E2'. injection E2' as E2'.
          destruct l as [|w [|w2 l]]; cbn [map] in E2'; try discriminate. injection E2' as <-. rewrite below_root in *.
          exists root1, w, []. split; [exact E1|]. split; [eapply first_of_sorted; eassumption|].
          pose proof E1 as E3. unfold M_Paths.ensure_path, process_path in E3. rewrite Hr in E3. cbn [negb bind] in E3.
          destruct (unify true None (Some gen) None None (esteps ns id) root [[]] []) as [[r1 l1]|] eqn:Eu; [|discriminate].
          cbn [bind] in E3. injection E3 as -> ->.
          destruct (unify_made asteps None Hcol (esteps ns id) Inc (esteps_creatable ns id Hns) root [[]] [] root1 [map K w])
            as (R1 & R2 & R3); [assumption|repeat constructor; discriminate|eauto|assumption|].
          split; [exact R1|]. split; [exact R2|]. split.
          + intros q y Hy Hq. split; [eapply R3; eassumption|]. destruct (oa_new _ _ _ _ O q y Hy Hq) as [Hr' Ht]. split; assumption.
          + split; [intros w' [Hw' _]; exfalso; eapply Nwk; exact Hw'|].
            intros id' w' Nid. split; intro W.
            * destruct (at_place root (map K w')) as [x|] eqn:Ex.
              -- eapply (walk_back root root1 (map K w) None []); [exact O|reflexivity|reflexivity|reflexivity|exact W|].
                 rewrite below_root. congruence.
              -- exfalso. destruct (walk_at _ _ _ W) as [c Hc].
                 destruct (oa_new _ _ _ _ O _ _ Hc Ex) as [[r Er] _].
                 assert (url_at ns root1 id w) as Wid by (apply Hl; now left).
                 pose proof (url_length _ _ _ W) as L1. pose proof (url_length _ _ _ Wid) as L2.
                 assert (r = []) as ->.
                 { apply (f_equal (@List.length hop)) in Er. rewrite app_length, !map_length in Er. destruct r; [reflexivity|cbn in Er; lia]. }
                 rewrite app_nil_r in Er. apply mapK_inj in Er. subst w'.
                 apply Nid. eapply url_unique; eassumption.
            * destruct (C27_still_found root root1 (map K w) None [] root (map (expanded ns) (url_steps id')) w' O eq_refl W) as (n' & E' & W').
              cbn in E'. injection E' as ->. exact W'.
        - (* found *)
          assert (walk root (esteps ns id) w0) as W0 by (apply walks_spec; rewrite Ew; now left).
          destruct (C27_found ws hasher m dd useDrafts ud uid ns root [] root (url_path id) (esteps ns id) (Some gen) None None w0
            eq_refl Hr W0) as (l & E1 & E2 & _).
          destruct (C26_found ws hasher m dd useDrafts ud uid ns root [] root (url_path id) (esteps ns id) None None None None eq_refl Hr)
            as (l' & El & Hl & Sl).
          pose proof E2 as E2'. unfold M_Paths.findall in E2'. rewrite El in E2'. injection E2' as <-.
          destruct l' as [|w l']; [exfalso; apply (Hl w0) in W0; destruct W0|].
          exists root, w, (map (below []) l'). split; [exact E1|]. split; [eapply first_of_sorted; eassumption|].
          split; [assumption|]. split; [intros q x Hq; exists x; split; [assumption|apply same_refl]|].
          split; [congruence|]. split; [auto|]. intros; reflexivity. }
      destruct Fu as [Wu Mu]. destruct (walk_at _ _ _ Wu) as [x Hx].
      destruct (retext (map K w) (Some (download id)) root1 x Hx) as [T1 T2].
      set (root' := put_at root1 (map K w) (set_text x (Some (download id)))) in *.
      assert (forall q x, at_place root1 q = Some x -> exists y, at_place root' q = Some y /\ ltag y = ltag x /\ lattrs y = lattrs x) as Sh.
      { intros q y Hq. destruct (T1 q y Hq) as (z & Hz & A1 & A2 & _). eauto. }
      assert (forall q x, at_place root' q = Some x -> exists y, at_place root1 q = Some y /\ ltag y = ltag x /\ lattrs y = lattrs x) as Sh'.
      { intros q y Hq. destruct (at_place root1 q) as [z|] eqn:Ez; [|rewrite (T2 q Ez) in Hq; discriminate].
        destruct (T1 q z Ez) as (y' & Hy' & A1 & A2 & _). exists z. split; [reflexivity|]. assert (y' = y) by congruence. subst. auto. }
      assert (forall id' w', url_at ns root' id' w' <-> url_at ns root1 id' w') as Same.
      { intros id' w'. split; intro W.
        - eapply (walk_same_shape _ root' root1 []); [exact Sh'|reflexivity|reflexivity|exact W].
        - eapply (walk_same_shape _ root1 root' []); [exact Sh|reflexivity|reflexivity|exact W]. }
      assert (forall id' w', first_url ns root1 id' w' -> first_url ns root' id' w') as SameF.
      { intros id' w' [W M]. split; [now apply Same|]. intros w2 W2. apply M. now apply Same. }
      assert (first_url ns root' id w) as Fu' by (apply SameF; split; assumption).
      exists root'. split.
      { cbn [M_Keymans.add_keyboards]. rewrite E. cbn [bind snd fst]. rewrite Hx. reflexivity. }
      split.
      { unfold root'. apply everywhere_put_at with (n := x); [apply decided_same|assumption|assumption|].
        pose proof (everywhere_at _ _ _ _ Ev1 Hx) as Evx. destruct (set_text_fields x (Some (download id))) as (F1 & F2 & F3 & F4 & F5 & F6).
        intros [|[j|k] q] y; cbn [at_place]; rewrite ?F5, ?F6; intro Hy.
        - injection Hy as <-. intros U st Hst Hh. rewrite F4 in Hh.
          assert (step_match st x = true) as Mx by (apply (Evx [] x eq_refl U st Hst Hh)).
          unfold step_match, lget in *. rewrite F1, F2. exact Mx.
        - apply (Evx (K j :: q) y). exact Hy.
        - apply (Evx (A k :: q) y). exact Hy. }
      constructor.
      - intros id' [<-|[]]. destruct (T1 _ _ Hx) as (y & Hy & _ & _ & [[_ Ty]|[N _]]); [|congruence]. exists w, y. auto.
      - intros q y Hq. destruct (Kp q y Hq) as (z & Hz & (S1 & S2 & S3)). destruct (T1 q z Hz) as (u & Hu & A1 & A2 & A3).
        exists u. split; [assumption|]. split; [congruence|]. split; [congruence|].
        destruct A3 as [[-> _]|[_ A3]]; [right; exists id, w; repeat split; [now left|apply Fu'|apply Fu']|left; congruence].
      - intros q y Hy Hq. destruct (at_place root1 q) as [z|] eqn:Ez; [|rewrite (T2 q Ez) in Hy; discriminate].
        destruct (Nw q z Ez Hq) as (D & Tz & r & Er). destruct (T1 q z Ez) as (u & Hu & A1 & A2 & A3).
        assert (u = y) by congruence. subst u. split; [unfold lget in *; congruence|].
        exists id, w, r. split; [now left|]. split; [assumption|]. split; [assumption|]. intro Nr.
        destruct A3 as [[-> _]|[_ A3]]; [|congruence]. exfalso. apply Nr.
        apply (f_equal (@List.length hop)) in Er. rewrite app_length in Er. destruct r; [reflexivity|cbn in Er; lia].
      - intros id' w' F'. apply SameF. destruct (streq_spec id' id) as [->|N]; [now apply Fs|].
        destruct F' as [W M]. split; [now apply Ot|]. intros w2 W2. apply M. now apply Ot.
      - intros id' w' N. rewrite Same. apply Ot. intros ->. apply N. now left.
    Qed.
    Lemma recorded_trans ids1 ids2 r1 r2 r3 : recorded ns ids1 r1 r2 -> recorded ns ids2 r2 r3 ->
      recorded ns (ids1 ++ ids2) r1 r3.
    Proof.
      intros R1 R2. constructor.
      - intros id Hin. destruct (in_dec (list_eq_dec N.eq_dec) id ids2) as [I2|N2]; [now apply (rc_url _ _ _ _ R2)|].
        apply in_app_iff in Hin as [I1|I2]; [|contradiction].
        destruct (rc_url _ _ _ _ R1 id I1) as (w & x & Fw & Hx & Tx).
        destruct (rc_kept _ _ _ _ R2 _ _ Hx) as (y & Hy & _ & _ & Ty). exists w, y.
        split; [now apply (rc_first _ _ _ _ R2)|]. split; [assumption|].
        destruct Ty as [Ty|(id' & w' & I' & F' & E')]; [congruence|]. exfalso. apply mapK_inj in E'. subst w'.
        apply N2. assert (id = id') as ->; [|assumption].
        eapply url_unique; [apply (rc_first _ _ _ _ R2 _ _ Fw)|apply F'].
      - intros q x Hq. destruct (rc_kept _ _ _ _ R1 q x Hq) as (y & Hy & A1 & A2 & A3).
        destruct (rc_kept _ _ _ _ R2 q y Hy) as (z & Hz & B1 & B2 & B3). exists z.
        split; [assumption|]. split; [congruence|]. split; [congruence|].
        destruct B3 as [B3|(id & w & I & Fw & E)]; [|right; exists id, w; split; [apply in_app_iff; now right|auto]].
        destruct A3 as [A3|(id & w & I & Fw & E)]; [left; congruence|].
        right. exists id, w. split; [apply in_app_iff; now left|]. split; [now apply (rc_first _ _ _ _ R2)|assumption].
      - intros q y Hy Hq. destruct (at_place r2 q) as [x|] eqn:Ex.
        + destruct (rc_new _ _ _ _ R1 q x Ex Hq) as (D & id & w & r & I & Fw & E & T).
          destruct (rc_kept _ _ _ _ R2 q x Ex) as (z & Hz & B1 & B2 & B3). assert (z = y) by congruence. subst z.
          split; [unfold lget in *; congruence|].
          destruct B3 as [B3|(id' & w' & I' & F' & E')].
          * exists id, w, r. split; [apply in_app_iff; now left|]. split; [now apply (rc_first _ _ _ _ R2)|].
            split; [assumption|]. intro Nr. rewrite B3. now apply T.
          * exists id', w', []. split; [apply in_app_iff; now right|]. split; [assumption|].
            split; [now rewrite app_nil_r|congruence].
        + destruct (rc_new _ _ _ _ R2 q y Hy Ex) as (D & id & w & r & I & Fw & E & T). split; [assumption|].
          exists id, w, r. split; [apply in_app_iff; now right|auto].
      - intros id w Fw. apply (rc_first _ _ _ _ R2). now apply (rc_first _ _ _ _ R1).
      - intros id w N. rewrite (rc_other _ _ _ _ R2), (rc_other _ _ _ _ R1); [reflexivity| |]; intro I; apply N; apply in_app_iff; auto.
    Qed.
    Lemma recorded_nil root : recorded ns [] root root.
    Proof.
      constructor; try (intros; contradiction).
      - intros q x Hq. exists x. auto.
      - congruence.
      - auto.
      - reflexivity.
    Qed.
    Lemma keyboards_recorded ids : incl ids all -> forall root, everywhere (decided asteps) root ->
      exists root', add_keyboards ids root = Ok root' /\ recorded ns ids root root'.
    Proof.
      induction ids as [|id ids IH]; intros Inc root Ev.
      - exists root. split; [reflexivity|apply recorded_nil].
      - destruct (one_keyboard root id ids (Inc id (or_introl eq_refl)) Ev) as (r1 & E & Ev1 & R1).
        destruct (IH (fun x H => Inc x (or_intror H)) r1 Ev1) as (r2 & E2 & R2).
        exists r2. rewrite E. split; [assumption|]. change (id :: ids) with ([id] ++ ids). eapply recorded_trans; eassumption.
    Qed.
  End Steps.

  (** ** C81: the keyboards are recorded, and nothing else is changed *)
  Theorem C81_recorded : forall ids root,
    no_space ws -> plain_prefixes ns -> Forall plain_id ids ->
    no_collision (flat_map (esteps ns) ids) ->
    (forall q x, at_place root q = Some x -> decided (flat_map (esteps ns) ids) x) ->
    exists root', add_keyboards ids root = Ok root' /\ recorded ns ids root root'.
  Proof.
    intros ids root W P Fp NC Ev. apply (keyboards_recorded W P ids Fp NC ids (incl_refl ids) root Ev).
  Qed.

  (** ** C81: doing it again changes nothing *)
  Theorem C81_again : forall ids root,
    no_space ws -> Forall plain_id ids ->
    (forall id, In id ids -> exists w x, first_url ns root id w /\
       at_place root (map K w) = Some x /\ ltext x = Some (download id)) ->
    add_keyboards ids root = Ok root.
  Proof.
    induction ids as [|id ids IH]; intros root W Fp H; [reflexivity|].
    inversion Fp as [|? ? P Fp']; subst. destruct (H id (or_introl eq_refl)) as (w & x & [Wu Mu] & Hx & Tx).
    pose proof (url_path_read ws ns id W P) as Hr.
    destruct (C27_found ws hasher m dd useDrafts ud uid ns root [] root (url_path id) (esteps ns id) (Some gen) None None w
      eq_refl Hr Wu) as (l & E1 & E2 & Hl).
    destruct (C26_found ws hasher m dd useDrafts ud uid ns root [] root (url_path id) (esteps ns id) None None None None eq_refl Hr)
      as (l' & El & Hl' & Sl).
    unfold M_Paths.findall in E2. rewrite El in E2. injection E2 as <-.
    destruct l' as [|w' l']; [destruct Hl|].
    assert (w' = w) as ->.
    { apply (first_unique ns root id).
      - split; [apply Hl'; now left|]. intros w2 H2. apply Hl' in H2 as [->|H2]; [now left|right].
        inversion Sl as [|? ? _ F]; subst. rewrite Forall_forall in F. now apply F.
      - split; assumption. }
    cbn [M_Keymans.add_keyboards]. rewrite E1. cbn [bind snd fst map]. rewrite below_root, Hx.
    assert (set_text x (Some (download id)) = x) as -> by (destruct x; cbn in *; now subst).
    rewrite put_at_id by assumption. apply IH; [assumption|assumption|]. intros id' Hin. apply H. now right.
  Qed.
End Proof.

(** * The whole script *)

(** the keyboards that list a language, in the order of the data *)
Definition listed (data : list keyboard) (lang : pystr) : list pystr :=
  flat_map (fun a => flat_map (fun k => if streq (li_id k) lang then [kb_id a] else []) (kb_langs a)) data.
Definition occurs (data : list keyboard) (lang : pystr) : Prop :=
  exists a k, In a data /\ In k (kb_langs a) /\ li_id k = lang.
(** what there is about fonts is complete *)
Definition complete_font (f : option fontinfo) : Prop :=
  match f with None => True | Some f => fi_family f <> None /\ exists s l, fi_source f = Some (s :: l) end.

Definition strictly (a b : pystr) : Prop := strleb a b = true /\ a <> b.

Lemma add_font_id s f e e' : streq (lit "id") (s ++ lit "family") = false -> streq (lit "id") (s ++ lit "source") = false ->
  add_font s f e = Ok e' -> dget streq e' (lit "id") = dget streq e (lit "id").
Proof.
  intros N1 N2. unfold add_font. destruct f as [f|]; [|congruence].
  destruct (fi_family f) as [fam|]; [|discriminate]. destruct (fi_source f) as [[|src sl]|]; try discriminate.
  intro E. injection E as <-. rewrite !(dget_dset _ streq_spec), N1, N2. reflexivity.
Qed.
Definition entry_id (e : entry) : option pystr := dget streq e (lit "id").

Lemma read_lang_spec id t k t' : read_lang id t k = Ok t' ->
  exists e, entry_id e = Some id /\
    t' = dset streq t (li_id k) (match dget streq t (li_id k) with Some l => l | None => [] end ++ [e]).
Proof.
  unfold read_lang. cbv zeta. set (e0 := [(lit "langtag", li_id k); (lit "id", id)]).
  assert (dget streq e0 (lit "id") = Some id) as E0 by reflexivity. clearbody e0. intro H.
  destruct (add_font (lit "font") (li_font k) e0) as [e1|] eqn:E1; [|discriminate]. cbn [bind] in H.
  destruct (add_font (lit "oskfont") (li_oskfont k) e1) as [e2|] eqn:E2; [|discriminate]. cbn [bind] in H. injection H as <-.
  exists e2. split; [|reflexivity]. unfold entry_id.
  rewrite (add_font_id (lit "oskfont") _ _ _ eq_refl eq_refl E2), (add_font_id (lit "font") _ _ _ eq_refl eq_refl E1). exact E0.
Qed.

(** the table so far: [ps] are the pairs of keyboard and language read *)
Definition ids_so_far (ps : list (pystr * pystr)) (lang : pystr) : list pystr :=
  flat_map (fun p : pystr * pystr => if streq (snd p) lang then [fst p] else []) ps.
Definition table_ok (ps : list (pystr * pystr)) (t : table) : Prop :=
  NoDup (dkeys t) /\
  (forall lang, In lang (dkeys t) <-> In lang (map snd ps)) /\
  forall lang l, dget streq t lang = Some l -> map entry_id l = map Some (ids_so_far ps lang).
Lemma ids_none ps lang : ~ In lang (map snd ps) -> ids_so_far ps lang = [].
Proof.
  induction ps as [|[i g] ps IH]; intro N; cbn; [reflexivity|]. cbn in N.
  destruct (streq_spec g lang) as [->|_]; [exfalso; apply N; now left|]. apply IH. intro; apply N; now right.
Qed.
Lemma table_step ps id t k t' : table_ok ps t -> read_lang id t k = Ok t' -> table_ok (ps ++ [(id, li_id k)]) t'.
Proof.
  intros (ND & Ks & Vs) H. destruct (read_lang_spec _ _ _ _ H) as (e & Ee & ->). split; [|split].
  - now apply (dset_NoDup _ streq_spec).
  - intro lang. rewrite (in_dkeys_dset _ streq_spec), Ks, map_app, in_app_iff. cbn. intuition.
  - intros lang l. rewrite (dget_dset _ streq_spec). unfold ids_so_far. rewrite flat_map_app. cbn [flat_map fst snd].
    rewrite app_nil_r. destruct (streq_spec lang (li_id k)) as [->|N].
    + intro E. injection E as <-. rewrite streq_refl, !map_app. cbn [map]. rewrite Ee. f_equal.
      destruct (dget streq t (li_id k)) as [l|] eqn:El; [now apply Vs|].
      apply (dget_None _ streq_spec) in El. rewrite Ks in El.
      change (flat_map _ ps) with (ids_so_far ps (li_id k)). now rewrite ids_none.
    + intro E. destruct (streq_spec (li_id k) lang) as [<-|_]; [congruence|]. rewrite app_nil_r. now apply Vs.
Qed.
Lemma table_keyboard id ks : forall ps t t', table_ok ps t -> foldres (read_lang id) ks t = Ok t' ->
  table_ok (ps ++ map (fun k => (id, li_id k)) ks) t'.
Proof.
  induction ks as [|k ks IH]; intros ps t t' T H; cbn [foldres map] in *; [injection H as <-; now rewrite app_nil_r|].
  destruct (read_lang id t k) as [t1|] eqn:E; [|discriminate]. cbn [bind] in H.
  specialize (IH _ _ _ (table_step _ _ _ _ _ T E) H). now rewrite <- app_assoc in IH.
Qed.
Definition pairs (data : list keyboard) : list (pystr * pystr) :=
  flat_map (fun a => map (fun k => (kb_id a, li_id k)) (kb_langs a)) data.
Lemma table_all data : forall ps t t', table_ok ps t ->
  foldres (fun t a => foldres (read_lang (kb_id a)) (kb_langs a) t) data t = Ok t' -> table_ok (ps ++ pairs data) t'.
Proof.
  induction data as [|a data IH]; intros ps t t' T H; cbn [foldres pairs flat_map] in *; [injection H as <-; now rewrite app_nil_r|].
  destruct (foldres (read_lang (kb_id a)) (kb_langs a) t) as [t1|] eqn:E; [|discriminate]. cbn [bind] in H.
  specialize (IH _ _ _ (table_keyboard _ _ _ _ _ T E) H). now rewrite <- app_assoc in IH.
Qed.
Lemma ids_pairs data lang : ids_so_far (pairs data) lang = listed data lang.
Proof.
  unfold ids_so_far, pairs, listed. rewrite flat_map_flat_map. apply flat_map_ext. intro a.
  induction (kb_langs a) as [|k ks IH]; [reflexivity|]. cbn [map flat_map fst snd]. now rewrite IH.
Qed.
Lemma occurs_pairs data lang : In lang (map snd (pairs data)) <-> occurs data lang.
Proof.
  unfold pairs, occurs. rewrite in_map_iff. split.
  - intros ([i g] & <- & H). apply in_flat_map in H as (a & Ha & H). apply in_map_iff in H as (k & E & Hk).
    injection E as <- <-. exists a, k. auto.
  - intros (a & k & Ha & Hk & <-). exists (kb_id a, li_id k). split; [reflexivity|]. apply in_flat_map. exists a.
    split; [assumption|]. apply in_map_iff. exists k. auto.
Qed.
Lemma ids_of_spec l ids : map entry_id l = map Some ids -> ids_of l = Ok ids.
Proof.
  unfold ids_of. assert (forall acc, map entry_id l = map Some ids ->
    foldres (fun l e => match dget streq e (lit "id") with Some v => Ok (l ++ [v]) | None => Raise KeyError end) l acc = Ok (acc ++ ids)) as H;
    [|intro E; now rewrite (H [] E)].
  revert ids. induction l as [|e l IH]; intros [|i ids] acc E; try discriminate; [cbn; now rewrite app_nil_r|].
  cbn [map] in E. injection E as E1 E2. cbn [foldres]. unfold entry_id in E1. rewrite E1. cbn [bind].
  rewrite (IH ids _ E2). now rewrite <- app_assoc.
Qed.

(** ** C81: what is collected *)
Theorem C81_collected : forall data,
  (forall a k, In a data -> In k (kb_langs a) -> complete_font (li_font k) /\ complete_font (li_oskfont k)) ->
  exists t, collect data = Ok t /\ NoDup (dkeys t) /\
    (forall lang, In lang (dkeys t) <-> occurs data lang) /\
    (forall lang l, dget streq t lang = Some l -> ids_of l = Ok (listed data lang)).
Proof.
  intros data C.
  assert (forall s f e, complete_font f -> exists e', add_font s f e = Ok e') as A.
  { intros s [f|] e H; cbn; [|eauto]. destruct H as [H1 (x & l & H2)]. destruct (fi_family f); [|congruence]. rewrite H2. eauto. }
  assert (forall id k t, complete_font (li_font k) /\ complete_font (li_oskfont k) -> exists t', read_lang id t k = Ok t') as R.
  { intros id k t [H1 H2]. unfold read_lang. cbv zeta.
    destruct (A (lit "font") _ [(lit "langtag", li_id k); (lit "id", id)] H1) as [e1 ->]. cbn [bind].
    destruct (A (lit "oskfont") _ e1 H2) as [e2 ->]. cbn [bind]. eauto. }
  assert (exists t, collect data = Ok t) as [t Et].
  { unfold collect. generalize (@nil (pystr * list entry)). induction data as [|a data IH]; intro t; cbn [foldres]; [eauto|].
    assert (forall ks t, (forall k, In k ks -> complete_font (li_font k) /\ complete_font (li_oskfont k)) ->
      exists t', foldres (read_lang (kb_id a)) ks t = Ok t') as F.
    { induction ks as [|k ks IHk]; intros t0 Hk; cbn [foldres]; [eauto|].
      destruct (R (kb_id a) k t0 (Hk k (or_introl eq_refl))) as [t1 ->]. cbn [bind]. apply IHk. intros; apply Hk. now right. }
    destruct (F (kb_langs a) t) as [t1 ->]. { intros k Hk. apply (C a); [now left|assumption]. }
    cbn [bind]. apply IH. intros a' k Ha Hk. apply (C a'); [now right|assumption]. }
  exists t. split; [assumption|].
  assert (table_ok [] []) as T0 by (split; [constructor|split; [tauto|discriminate]]).
  destruct (table_all data [] [] t T0 Et) as (ND & Ks & Vs). cbn [app] in *.
  split; [assumption|]. split.
  - intro lang. rewrite Ks. apply occurs_pairs.
  - intros lang l H. apply ids_of_spec. rewrite <- ids_pairs. now apply Vs.
Qed.

(** ** Finding: with a report asked for, nothing is done when there is anything to do *)
Theorem C81_report_refuted : forall ws hasher m useDrafts ud uid F load save lookup lower sldr dryrun data t
    (files : list (pystr * F)),
  collect data = Ok t -> t <> [] ->
  keymans ws hasher m useDrafts ud uid F load save lookup lower true sldr dryrun data files
  = (Some [fieldnames], files, Some ValueError).
Proof.
  intros ws hasher m useDrafts ud uid F load save lookup lower sldr dryrun data t files Et Nt.
  assert (table_ok [] []) as T0 by (split; [constructor|split; [tauto|discriminate]]).
  destruct (table_all data [] [] t T0 Et) as (ND & Ks & Vs). cbn [app] in *.
  unfold keymans. rewrite Et. cbn [fst snd].
  assert (report t = ([fieldnames], Some ValueError)) as ->; [|reflexivity].
  unfold report. destruct (by_lang t) as [|[g l] r] eqn:Er.
  { exfalso. apply Nt. unfold by_lang in Er. pose proof (isort_perm (fun a b : pystr * list entry => strleb (fst a) (fst b)) t) as Pm.
    rewrite Er in Pm. destruct t; [reflexivity|]. apply Permutation_nil in Pm || apply Permutation_sym, Permutation_nil in Pm. discriminate. }
  assert (In (g, l) t) as Hin.
  { apply (in_isort (fun a b : pystr * list entry => strleb (fst a) (fst b))). unfold by_lang in Er. rewrite Er. now left. }
  assert (dget streq t g = Some l) as Hg by (apply (dget_NoDup_In _ streq_spec); assumption).
  specialize (Vs g l Hg).
  assert (In g (map snd (pairs data))) as Hp. { apply Ks. eapply in_map with (f := fst) in Hin. exact Hin. }
  assert (ids_so_far (pairs data) g <> []) as Ni.
  { apply in_map_iff in Hp as ([i g'] & Eg & Hp). cbn [snd] in Eg. subst g'. intro E.
    assert (In i (ids_so_far (pairs data) g)) as Hi; [|rewrite E in Hi; destruct Hi].
    apply in_flat_map. exists (i, g). split; [assumption|]. cbn [fst snd]. rewrite streq_refl. now left. }
  destruct l as [|e l]; [cbn in Vs; destruct (ids_so_far (pairs data) g); [congruence|discriminate]|].
  destruct (ids_so_far (pairs data) g) as [|i is]; [discriminate|]. cbn [map] in Vs. injection Vs as Ve _.
  cbn [flat_map snd app write_rows]. unfold dict_row.
  assert (forallb (fun k => existsb (streq k) fieldnames) (dkeys e) = false) as ->; [|reflexivity].
  apply not_true_is_false. intro Fa. rewrite forallb_forall in Fa.
  assert (In (lit "id") (dkeys e)) as Hid.
  { destruct (in_dec (list_eq_dec N.eq_dec) (lit "id") (dkeys e)) as [H|H]; [assumption|].
    apply (dget_None _ streq_spec) in H. unfold entry_id in Ve. congruence. }
  specialize (Fa _ Hid). vm_compute in Fa. discriminate.
Qed.

(** * The files *)
Section Files.
  Variable ws : N -> bool.
  Variable hasher : pystr -> Z.
  Variable m : meta.
  Variable useDrafts : bool.
  Variable ud uid : option pystr.
  Variable F : Type.
  Variable load : F -> res (pystr * list (pystr * pystr) * lnode).
  Variable save : pystr * list (pystr * pystr) * lnode -> F.
  Variable lookup : pystr -> option pystr.
  Variable lower : N -> pystr.
  Notation add_keyboards := (add_keyboards ws hasher m useDrafts ud uid).
  Notation do_lang := (do_lang ws hasher m useDrafts ud uid F load save lookup lower).
  Notation do_langs := (do_langs ws hasher m useDrafts ud uid F load save lookup lower).
  Notation keymans := (keymans ws hasher m useDrafts ud uid F load save lookup lower).

  (** ** Specification *)
  (** the name of the file of a language: four ISO 639-3 codes are tried again as the two letter ones *)
  Inductive named : pystr -> pystr -> Prop :=
  | named_known lang f : lookup lang = Some f -> named lang f
  | named_again lang t f : lookup lang = None ->
      In (lang, t) [(lit "yor", lit "yo"); (lit "kau", lit "kr"); (lit "ibo", lit "ig"); (lit "hau", lit "ha")] ->
      lookup t = Some f -> named lang f.
  (** where it is: at the root, or else below its first letter *)
  Inductive stored (here : pystr -> Prop) : pystr -> pystr -> Prop :=
  | stored_top f : here f -> stored here f f
  | stored_sub c f : ~ here (c :: f) -> here (lower c ++ [47%N] ++ c :: f) ->
      stored here (c :: f) (lower c ++ [47%N] ++ c :: f).
  Definition goes_to (here : pystr -> Prop) (lang p : pystr) : Prop := exists f, named lang f /\ stored here f p.

  (** what happens to the file at [p]: it is loaded, given the keyboards of the language, and
      saved, for one language after the other *)
  Inductive history (here : pystr -> Prop) (p : pystr) : list (pystr * list pystr) -> F -> F -> Prop :=
  | h_end c : history here p [] c c
  | h_other lang ids l c c' : ~ goes_to here lang p -> history here p l c c' -> history here p ((lang, ids) :: l) c c'
  | h_add lang ids l c dd ns root root' c' : goes_to here lang p ->
      load c = Ok (dd, ns, root) -> add_keyboards dd ns ids root = Ok root' ->
      history here p l (save (dd, ns, root')) c' -> history here p ((lang, ids) :: l) c c'.

  (** why the script can stop at a language *)
  Definition stops (files : list (pystr * F)) (lang : pystr) (ids : list pystr) (x : exn) : Prop :=
    (named lang [] /\ x = IndexError) \/
    exists p c, goes_to (fun q => In q (dkeys files)) lang p /\ dget streq files p = Some c /\
      (load c = Raise x \/ exists dd ns root, load c = Ok (dd, ns, root) /\ add_keyboards dd ns ids root = Raise x).

  (** ** Proof *)
  Lemma file_name_spec lang f : file_name lookup lang = Some f <-> named lang f.
  Proof.
    unfold file_name. split.
    - destruct (lookup lang) as [g|] eqn:E; [intro H; injection H as <-; now constructor|].
      destruct (dget streq badtags lang) as [t|] eqn:Eb; [|discriminate]. intro H.
      apply (dget_In _ streq_spec) in Eb. eapply named_again; eassumption.
    - intro H. inversion H as [l g E|l t g E Hin Et]; subst; rewrite E; [reflexivity|].
      assert (dget streq badtags lang = Some t) as ->; [|assumption].
      apply (dget_NoDup_In _ streq_spec); [|exact Hin].
      unfold badtags, dkeys. cbn [map fst].
      repeat (constructor; [cbn [In]; intro X; repeat (destruct X as [X|X]; [vm_compute in X; discriminate|]); exact X|]). constructor.
  Qed.
  Lemma dmem_In (d : list (pystr * F)) k : dmem streq d k = true <-> In k (dkeys d).
  Proof.
    unfold dmem. destruct (dget streq d k) as [v|] eqn:E.
    - split; [intros _|reflexivity]. apply (dget_In _ streq_spec) in E. now apply (in_map fst) in E.
    - apply (dget_None _ streq_spec) in E. split; [discriminate|contradiction].
  Qed.
  Lemma file_path_spec files fname : 
    match file_path F lower files fname with
    | Raise x => fname = [] /\ x = IndexError /\ ~ In fname (dkeys files)
    | Ok (Some p) => stored (fun q => In q (dkeys files)) fname p /\ In p (dkeys files)
    | Ok None => forall p, ~ stored (fun q => In q (dkeys files)) fname p
    end.
  Proof.
    unfold file_path. destruct (dmem streq files fname) eqn:E.
    - apply dmem_In in E. split; [now constructor|assumption].
    - assert (~ In fname (dkeys files)) as N by (rewrite <- dmem_In; congruence).
      destruct fname as [|c f]; [auto|]. cbv zeta.
      destruct (dmem streq files (lower c ++ [47%N] ++ c :: f)) eqn:E2.
      + apply dmem_In in E2. split; [now constructor|assumption].
      + intros p H. inversion H as [g Hg|c' g Ng Hs]; subst; [contradiction|]. apply dmem_In in Hs. congruence.
  Qed.
  Lemma named_fun lang f g : named lang f -> named lang g -> f = g.
  Proof. intros H H'. apply file_name_spec in H, H'. congruence. Qed.
  Lemma stored_fun here f p q : stored here f p -> stored here f q -> p = q.
  Proof. intros H H'. inversion H; inversion H'; subst; try reflexivity; try contradiction; congruence. Qed.

  (** one language *)
  Lemma do_lang_spec files lang info ids : NoDup (dkeys files) -> ids_of info = Ok ids ->
    let here q := In q (dkeys files) in
    match do_lang false files lang info with
    | Ok files' => dkeys files' = dkeys files /\
        forall p c, dget streq files p = Some c -> exists c', dget streq files' p = Some c' /\
          history here p [(lang, ids)] c c'
    | Raise x => stops files lang ids x
    end.
  Proof.
    intros ND Ei here. unfold M_Keymans.do_lang. destruct (file_name lookup lang) as [f|] eqn:Ef.
    2:{ split; [reflexivity|]. intros p c Hc. exists c. split; [assumption|]. apply h_other; [|constructor].
        intros (f & Hn & _). apply file_name_spec in Hn. congruence. }
    apply file_name_spec in Ef. pose proof (file_path_spec files f) as P.
    destruct (file_path F lower files f) as [[p|]|x]; cbn [bind].
    - destruct P as [St Hp]. destruct (dget streq files p) as [c|] eqn:Ec.
      2:{ apply (dget_None _ streq_spec) in Ec. contradiction. }
      destruct (load c) as [[[dd ns] root]|x] eqn:El; cbn [bind].
      + rewrite Ei. cbn [bind]. destruct (add_keyboards dd ns ids root) as [root'|x] eqn:Ea; cbn [bind].
        * split.
          { clear -Hp. induction files as [|[k v] files IH]; [destruct Hp|]. cbn. destruct (streq_spec p k) as [->|N]; cbn; [reflexivity|].
            f_equal. apply IH. cbn in Hp. destruct Hp as [->|Hp]; [congruence|exact Hp]. }
          intros q d Hd. rewrite (dget_dset _ streq_spec). destruct (streq_spec q p) as [->|N].
          -- exists (save (dd, ns, root')). split; [reflexivity|]. assert (d = c) by congruence. subst d.
             eapply h_add; [exists f; split; eassumption|eassumption|eassumption|constructor].
          -- exists d. split; [assumption|]. apply h_other; [|constructor]. intros (g & Hg & Sg).
             apply N. assert (g = f) as -> by (eapply named_fun; eassumption). eapply stored_fun; eassumption.
        * right. exists p, c. split; [exists f; split; assumption|]. split; [assumption|]. right. exists dd, ns, root. auto.
      + right. exists p, c. split; [exists f; split; assumption|]. split; [assumption|]. now left.
    - split; [reflexivity|]. intros p c Hc. exists c. split; [assumption|]. apply h_other; [|constructor].
      intros (g & Hg & Sg). assert (g = f) as -> by (eapply named_fun; eassumption). apply (P p Sg).
    - destruct P as (-> & -> & _). left. auto.
  Qed.
  Lemma history_app here p l1 l2 c1 c2 c3 : history here p l1 c1 c2 -> history here p l2 c2 c3 -> history here p (l1 ++ l2) c1 c3.
  Proof.
    intro H. revert c3. induction H as [c|lang ids l c c' Ng H IH|lang ids l c dd' ns' r r' c' G El Ea H IH]; intros c3 H'; cbn [app].
    - assumption.
    - apply h_other; auto.
    - eapply h_add; eauto.
  Qed.

  Lemma do_langs_spec t : forall files files' x, NoDup (dkeys files) ->
    (forall lang info, In (lang, info) t -> exists ids, ids_of info = Ok ids) ->
    do_langs false t files = (files', x) ->
    let here q := In q (dkeys files) in
    exists done rest, t = done ++ rest /\ dkeys files' = dkeys files /\
      (forall p c ids, (forall lang info, In (lang, info) t -> ids_of info = Ok (ids lang)) -> dget streq files p = Some c ->
         exists c', dget streq files' p = Some c' /\ history here p (map (fun kv : pystr * list entry => (fst kv, ids (fst kv))) done) c c') /\
      match x with
      | None => rest = []
      | Some e => exists lang info rest' , rest = (lang, info) :: rest' /\
          forall ids, ids_of info = Ok ids -> stops files' lang ids e
      end.
  Proof.
    induction t as [|[lang info] t IH]; intros files files' x ND Hids H here; cbn [M_Keymans.do_langs] in H.
    - injection H as <- <-. exists [], []. split; [reflexivity|]. split; [reflexivity|]. split; [|reflexivity].
      intros p c ids _ Hc. exists c. split; [assumption|constructor].
    - destruct (Hids lang info (or_introl eq_refl)) as [ids0 E0]. pose proof (do_lang_spec files lang info ids0 ND E0) as D. cbv zeta in D.
      destruct (do_lang false files lang info) as [files1|e].
      + destruct D as [K1 D1].
        destruct (IH files1 files' x) as (done & rest & -> & K2 & Hh & Hx).
        { now rewrite K1. } { intros; eapply Hids; right; eassumption. } { assumption. }
        exists ((lang, info) :: done), rest. split; [reflexivity|]. split; [congruence|]. split; [|assumption].
        intros p c ids Hi Hc. destruct (D1 p c Hc) as (c1 & Hc1 & H1).
        destruct (Hh p c1 ids) as (c2 & Hc2 & H2); [intros; apply Hi; now right|assumption|].
        exists c2. split; [assumption|]. cbn [map fst]. change ((lang, ids lang) :: map (fun kv : pystr * list entry => (fst kv, ids (fst kv))) done)
          with ([(lang, ids lang)] ++ map (fun kv : pystr * list entry => (fst kv, ids (fst kv))) done).
        assert (ids0 = ids lang) as -> by (pose proof (Hi lang info (or_introl eq_refl)); congruence).
        cbv zeta in H2. rewrite K1 in H2. eapply history_app; eassumption.
      + injection H as <- <-. exists [], ((lang, info) :: t). split; [reflexivity|]. split; [reflexivity|]. split.
        * intros p c ids _ Hc. exists c. split; [assumption|constructor].
        * exists lang, info, t. split; [reflexivity|]. intros ids Ei. assert (ids = ids0) as -> by congruence. exact D.
  Qed.

  (** ** C81: the languages are dealt with in order, each file gets the keyboards of its
      languages, no other file changes, and the script stops at the first error *)
  Theorem C81_files : forall data t files rep files' x,
    collect data = Ok t -> NoDup (dkeys files) ->
    keymans false true false data files = (rep, files', x) ->
    let here q := In q (dkeys files) in
    exists done rest, StronglySorted strictly (done ++ rest) /\
      (forall lang, In lang (done ++ rest) <-> occurs data lang) /\
      dkeys files' = dkeys files /\
      (forall p c, dget streq files p = Some c -> exists c', dget streq files' p = Some c' /\
         history here p (map (fun lang => (lang, listed data lang)) done) c c') /\
      match x with
      | None => rest = []
      | Some e => exists lang rest', rest = lang :: rest' /\ stops files' lang (listed data lang) e
      end.
  Proof.
    intros data t files rep files' x Et ND H here. unfold M_Keymans.keymans in H. rewrite Et in H.
    destruct (do_langs false (by_lang t) files) as [f1 x1] eqn:Ed. cbn [fst snd] in H. injection H as <- <- <-.
    assert (table_ok [] []) as T0 by (split; [constructor|split; [tauto|discriminate]]).
    destruct (table_all data [] [] t T0 Et) as (NDt & Ks & Vs). cbn [app] in *.
    assert (forall lang info, In (lang, info) (by_lang t) -> ids_of info = Ok (listed data lang)) as Hids.
    { intros lang info Hin. unfold by_lang in Hin. apply in_isort in Hin. apply ids_of_spec. rewrite <- ids_pairs. apply Vs.
      now apply (dget_NoDup_In _ streq_spec). }
    destruct (do_langs_spec (by_lang t) files f1 x1 ND) as (done & rest & Eb & K & Hh & Hx); [|assumption|].
    { intros lang info Hin. exists (listed data lang). now apply Hids. }
    exists (map fst done), (map fst rest). rewrite <- map_app, <- Eb. split; [|split; [|split; [assumption|split]]].
    - unfold by_lang. assert (forall a b : pystr * list entry, strleb (fst a) (fst b) = true \/ strleb (fst b) (fst a) = true) as Tot by (intros; apply strleb_total).
      assert (forall a b c : pystr * list entry, strleb (fst a) (fst b) = true -> strleb (fst b) (fst c) = true -> strleb (fst a) (fst c) = true) as Tr by (intros; eapply strleb_trans; eassumption).
      pose proof (isort_sorted _ Tot Tr t) as Ss. pose proof (isort_perm (fun a b : pystr * list entry => strleb (fst a) (fst b)) t) as Pm.
      apply (Permutation_map fst) in Pm. pose proof (Permutation_NoDup Pm NDt) as NDs. clear -Ss NDs.
      induction Ss as [|a l Ss IH Fa]; cbn [map] in *; [constructor|]. inversion NDs as [|? ? Na NDs']; subst.
      constructor; [now apply IH|]. apply Forall_forall. intros b Hb. apply in_map_iff in Hb as (b' & <- & Hb).
      rewrite Forall_forall in Fa. split; [now apply Fa|]. intro E. apply Na. rewrite E. now apply in_map.
    - intro lang. rewrite <- occurs_pairs, <- Ks. unfold by_lang, dkeys. split; intro Hin;
        apply in_map_iff in Hin as (kv & <- & Hin); apply in_map; [now apply in_isort in Hin|now apply in_isort].
    - intros p c Hc. destruct (Hh p c (listed data) Hids Hc) as (c' & Hc' & Hi). exists c'. split; [assumption|].
      rewrite map_map. exact Hi.
    - destruct x1 as [e|]; [|now subst rest]. destruct Hx as (lang & info & rest' & -> & Hs).
      exists lang, (map fst rest'). split; [reflexivity|]. apply Hs. apply Hids. rewrite Eb. apply in_app_iff. right. now left.
  Qed.

  (** ** C81: a dry run changes nothing *)
  Theorem C81_dryrun : forall output sldr data files, snd (fst (keymans output sldr true data files)) = files.
  Proof.
    intros output sldr data files. unfold M_Keymans.keymans. destruct (collect data) as [t|]; [|reflexivity].
    destruct (if output then _ else _) as [rep [x|]]; [reflexivity|]. destruct sldr; [|reflexivity]. cbn [fst snd].
    induction (by_lang t) as [|[lang info] l IH]; [reflexivity|]. cbn [M_Keymans.do_langs].
    unfold M_Keymans.do_lang. destruct (file_name lookup lang); [|exact IH].
    destruct (file_path F lower files _) as [[p|]|x]; cbn [bind]; [exact IH|exact IH|reflexivity].
  Qed.

  (** ** C81: when what is saved is what is loaded next, the languages of a file add up *)
  Lemma add_keyboards_app dd ns a b : forall root,
    add_keyboards dd ns (a ++ b) root = (do r <- add_keyboards dd ns a root; add_keyboards dd ns b r).
  Proof.
    induction a as [|id a IH]; intro root; cbn [app M_Keymans.add_keyboards]; [reflexivity|].
    destruct (ensure_path _ _ _ _ _ _ _ _ _ _ _ _ _ _ _ _ _) as [[r [|p l]]|]; cbn [bind snd fst]; [reflexivity| |reflexivity].
    destruct (at_place r p); [apply IH|reflexivity].
  Qed.
  Theorem C81_together : forall here p l dd ns root c',
    (forall d, load (save d) = Ok d) ->
    history here p l (save (dd, ns, root)) c' ->
    exists ids root', add_keyboards dd ns ids root = Ok root' /\ c' = save (dd, ns, root') /\
      (forall id, In id ids <-> exists lang ids', In (lang, ids') l /\ goes_to here lang p /\ In id ids').
  Proof.
    intros here p l dd ns root c' LS H. remember (save (dd, ns, root)) as c eqn:Ec.
    revert root Ec. induction H as [c|lang ids l c c' Ng H IH|lang ids l c dd' ns' r r' c' G El Ea H IH]; intros root Ec.
    - exists [], root. split; [reflexivity|]. split; [assumption|]. intro id. split; [intros []|intros (? & ? & [] & _)].
    - destruct (IH root Ec) as (ids1 & root' & E1 & E2 & I). exists ids1, root'. split; [assumption|]. split; [assumption|].
      intro id. rewrite I. split.
      + intros (lg & i & Hin & X). exists lg, i. split; [now right|assumption].
      + intros (lg & i & [E|Hin] & X & Y); [injection E as <- <-; contradiction|]. exists lg, i. auto.
    - subst c. rewrite LS in El. injection El as <- <- <-.
      destruct (IH r' eq_refl) as (ids1 & root' & E1 & E2 & I). exists (ids ++ ids1), root'.
      split; [rewrite add_keyboards_app, Ea; exact E1|]. split; [assumption|].
      intro id. rewrite in_app_iff, I. split.
      + intros [Hin|(lg & i & Hin & X)]; [exists lang, ids; split; [now left|auto]|exists lg, i; split; [now right|assumption]].
      + intros (lg & i & [E|Hin] & X & Y); [injection E as <- <-; now left|right; exists lg, i; auto].
  Qed.
End Files.

(** * The hypotheses are met *)
Definition ex_kbkeys : meta :=
  {| m_keys := [lit "id"; lit "type"]; m_nonkey := []; m_key := []; m_attord := []; m_maxats := 0; m_elord := [];
     m_maxels := 0; m_attvals := []; m_serial := []; m_blocks := [] |}.
Definition ex_kbns : list (pystr * pystr) := [(lit "urn:sil", lit "sil")].
Definition ex_kbdoc : lnode :=
  M_Drafts.load blank (fun s => s) toy_hash ex_kbkeys (lit "unconfirmed") true
    (Node (lit "ldml") [] None
       [Node (lit "special") [] None
          [Node (lit "{urn:sil}external-resources") [] None
             [Node (lit "{urn:sil}kbd") [(lit "id", lit "k1"); (lit "type", lit "kmp")] None
                [Node (lit "{urn:sil}url") [] (Some (lit "old")) []]]]]).
Definition ex_kbids : list pystr := [lit "k1"; lit "k2"].
Definition ex_add := add_keyboards blank toy_hash ex_kbkeys true None None (lit "unconfirmed") ex_kbns.
(** every element of a document, by computation *)
Fixpoint everyb (fuel : nat) (f : lnode -> bool) (n : lnode) : bool :=
  match fuel with
  | O => false
  | S fuel => (f n && forallb (everyb fuel f) (lkids n)
               && forallb (fun kv => everyb fuel f (snd kv)) (match lalts n with Some a => a | None => [] end))%bool
  end.
Lemma everyb_spec f fuel : forall n, everyb fuel f n = true -> forall q x, at_place n q = Some x -> f x = true.
Proof.
  induction fuel as [|fuel IH]; intros n H q x Hq; [discriminate|]. cbn [everyb] in H.
  apply andb_true_iff in H as [H H3]. apply andb_true_iff in H as [H1 H2]. rewrite forallb_forall in H2, H3.
  destruct q as [|[i|k] q]; cbn [at_place] in Hq.
  - congruence.
  - destruct (nth_error (lkids n) i) as [c|] eqn:Ei; [|discriminate]. apply nth_error_In in Ei.
    apply (IH c (H2 c Ei) q). exact Hq.
  - destruct (lalts n) as [alts|]; [|discriminate]. destruct (dget streq alts k) as [c|] eqn:Ei; [|discriminate].
    apply (dget_In _ streq_spec) in Ei. apply (IH c (H3 _ Ei) q). exact Hq.
Qed.
Example C81_met :
  no_space blank /\ plain_prefixes ex_kbns /\ Forall plain_id ex_kbids /\
  no_collision toy_hash ex_kbkeys true None (flat_map (esteps ex_kbns) ex_kbids) /\
  (forall q x, at_place ex_kbdoc q = Some x -> decided toy_hash ex_kbkeys true None (flat_map (esteps ex_kbns) ex_kbids) x) /\
  exists root', ex_add ex_kbids ex_kbdoc = Ok root' /\ ex_add ex_kbids root' = Ok root' /\
    option_map ltext (at_place root' (map K [0; 0; 0; 0])) = Some (Some (download (lit "k1"))) /\
    option_map ltext (at_place root' (map K [0; 0; 1; 0])) = Some (Some (download (lit "k2"))).
Proof.
  split; [|split; [|split; [|split; [|split]]]].
  - intros c Hc. cbn [In] in Hc. repeat (destruct Hc as [<-|Hc]; [reflexivity|]). destruct Hc.
  - intros u p [E|[]] p' X. injection E as <- <-. vm_compute in X. discriminate.
  - repeat constructor; apply without_dec; reflexivity.
  - intros _ s t Hs Ht E. cbn [ex_kbids flat_map app esteps url_steps map In] in Hs, Ht.
    repeat (destruct Hs as [<-|Hs]; [repeat (destruct Ht as [<-|Ht]; [vm_compute in E; first [discriminate E|vm_compute; reflexivity]|]); destruct Ht|]). destruct Hs.
  - intros q x Hx _ st Hin E.
    pose proof (everyb_spec (fun x => forallb (fun st => implb (Z.eqb (lah x) (new_hash toy_hash ex_kbkeys true None (Some (lit "generated")) st)) (step_match st x))
      (flat_map (esteps ex_kbns) ex_kbids)) 10 ex_kbdoc) as V.
    specialize (V ltac:(vm_compute; reflexivity) q x Hx). cbv beta in V. rewrite forallb_forall in V. specialize (V st Hin).
    rewrite E, Z.eqb_refl in V. exact V.
  - eexists. split; [vm_compute; reflexivity|]. split; [vm_compute; reflexivity|]. split; vm_compute; reflexivity.
Qed.
(** two languages, one of them under its old code, in a tree with one file *)
Definition ex_file : Type := (pystr * list (pystr * pystr) * lnode)%type.
Definition ex_kblookup (s : pystr) : option pystr := if streq s (lit "yo") then Some (lit "yo.xml") else None.
Definition ex_kbdata : list keyboard :=
  [Keyboard (lit "k2") [LangInfo (lit "yor") None None; LangInfo (lit "xx") None None]; Keyboard (lit "k1") [LangInfo (lit "yo") None None]].
Definition ex_kbrun (output dryrun : bool) :=
  keymans blank toy_hash ex_kbkeys true None None ex_file (fun d => Ok d) (fun d => d) ex_kblookup (fun c => [c])
    output true dryrun ex_kbdata [(lit "y/yo.xml", (lit "unconfirmed", ex_kbns, ex_kbdoc))].
Example C81_run_met :
  (exists t, collect ex_kbdata = Ok t /\ t <> []) /\
  (exists root', ex_add [lit "k1"; lit "k2"] ex_kbdoc = Ok root' /\
     ex_kbrun false false = (None, [(lit "y/yo.xml", (lit "unconfirmed", ex_kbns, root'))], None)) /\
  ex_kbrun true false = (Some [fieldnames], [(lit "y/yo.xml", (lit "unconfirmed", ex_kbns, ex_kbdoc))], Some ValueError).
Proof.
  split; [|split].
  - eexists. split; [vm_compute; reflexivity|discriminate].
  - eexists. split; [vm_compute; reflexivity|vm_compute; reflexivity].
  - vm_compute. reflexivity.
Qed.
