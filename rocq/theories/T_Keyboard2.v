(** Properties of the transform tables of keyboards, for tables filled in any way
    (C43, C44, C55, C56). *)
From Verif Require Import Py PyFacts M_UnicodeSets M_Flatten M_Keyboard T_Keyboard.
Local Open Scope list_scope.
Local Open Scope nat_scope.

(** ** Specification *)

(** the node that character [c] leads to: an entry, or else an entry of the default *)
Inductive step (t : rule) (c : N) : rule -> Prop :=
| step_key r : dget streq (r_kids t) [c] = Some r -> step t c r
| step_default d r : dget streq (r_kids t) [c] = None -> r_default t = Some d ->
                     dget streq (r_kids d) [c] = Some r -> step t c r.
Inductive leads (t : rule) : pystr -> rule -> Prop :=
| leads_nil : leads t [] t
| leads_snoc p c r r' : leads t p r -> step r c r' -> leads t (p ++ [c]) r'.

(** a context fits after the first [n] characters of [s]: nothing is asked before them, and what
    is asked after them is there *)
Definition fits (m : pystr * pystr) (s : pystr) (n : nat) : Prop :=
  fst m = [] /\ exists rest, skipn n s = snd m ++ rest.
(** the rule a node stands for: itself without contexts, else that of the first that fits *)
Definition applies (node : rule) (s : pystr) (n : nat) (r : rule) : Prop :=
  (r_contexts node = [] /\ r = node) \/
  (exists pre m post, r_contexts node = pre ++ (m, r) :: post /\ fits m s n /\
     forall m' r', In (m', r') pre -> ~ fits m' s n).

(** the first [n] characters of [s], at least one, lead to a rule that applies to [s] *)
Definition rule_for (t : rule) (s : pystr) (n : nat) (r : rule) : Prop :=
  1 <= n <= length s /\
  exists node, leads t (firstn n s) node /\ r_rule node = true /\ applies node s n r.
Definition longest (t : rule) (s : pystr) (n : nat) (r : rule) : Prop :=
  rule_for t s n r /\ forall m r', rule_for t s m r' -> m <= n.
Definition no_rule (t : rule) (s : pystr) : Prop := forall m r, ~ rule_for t s m r.

(** the whole of [s] is the beginning of something longer in the table *)
Definition waiting (t : rule) (s : pystr) : Prop :=
  exists node, leads t s node /\ r_kids node <> [].

Definition no_defaults (t : rule) : Prop := forall p r, leads t p r -> r_default r = None.
Definition no_contexts (t : rule) : Prop := forall p r, leads t p r -> r_contexts r = [].

(** [u] is what the table makes of [s]: from the left, the longest rule that applies is
    replaced by its text and a character with no rule is kept. When partial matches are hidden
    ([hide]), an end of [s] that may still become something longer is left out. *)
Inductive rewrites (hide : bool) (t : rule) : pystr -> pystr -> Prop :=
| rw_nil : rewrites hide t [] []
| rw_wait s : hide = true -> s <> [] -> waiting t s -> rewrites hide t s []
| rw_rule s n r u : (hide = true -> ~ waiting t s) -> longest t s n r -> is_error r = false ->
    rewrites hide t (skipn n s) u -> rewrites hide t s (attr_or r (lit "to") [] ++ u)
| rw_copy c s u : (hide = true -> ~ waiting t (c :: s)) -> no_rule t (c :: s) ->
    rewrites hide t s u -> rewrites hide t (c :: s) (c :: u).

(** going from the left in the same way a rule with an error attribute is met *)
Inductive meets_error (hide : bool) (t : rule) : pystr -> Prop :=
| me_here s n r : (hide = true -> ~ waiting t s) -> longest t s n r -> is_error r = true ->
    meets_error hide t s
| me_rule s n r : (hide = true -> ~ waiting t s) -> longest t s n r -> is_error r = false ->
    meets_error hide t (skipn n s) -> meets_error hide t s
| me_copy c s : (hide = true -> ~ waiting t (c :: s)) -> no_rule t (c :: s) ->
    meets_error hide t s -> meets_error hide t (c :: s).

(** ** Matching *)

Lemma match_context_spec m s n : n <= length s -> match_context m s 0 n = true <-> fits m s n.
Proof.
  intros Hn. destruct m as [b a]. unfold match_context, fits. cbn [fst snd].
  destruct b as [|x b].
  - cbn [andb]. destruct a as [|y a].
    + split; auto. intros _. split; auto. exists (skipn n s). reflexivity.
    + rewrite andb_true_iff, Nat.leb_le, streq_true. unfold slice.
      replace (n + length (y :: a) - n) with (length (y :: a)) by lia. split.
      * intros [H1 H2]. split; auto. exists (skipn (length (y :: a)) (skipn n s)).
        rewrite <- H2 at 1. symmetry. apply firstn_skipn.
      * intros [_ [rest Hr]]. rewrite Hr. split.
        -- apply (f_equal (@length N)) in Hr. rewrite skipn_length, app_length in Hr. lia.
        -- rewrite firstn_app, Nat.sub_diag, firstn_all. cbn [firstn]. apply app_nil_r.
  - cbn [length Nat.leb andb]. split; [discriminate|]. intros [H _]. discriminate.
Qed.

Lemma find_first {A} (f : A -> bool) l x : List.find f l = Some x <->
  exists pre post, l = pre ++ x :: post /\ f x = true /\ forall y, In y pre -> f y = false.
Proof.
  induction l as [|z l IH]; cbn [List.find].
  - split; [discriminate|]. intros (pre & post & E & _). destruct pre; discriminate.
  - destruct (f z) eqn:Ez.
    + split.
      * intros E; injection E as <-. exists [], l. repeat split; auto. intros y [].
      * intros (pre & post & E & Hx & Hp). destruct pre as [|y pre]; cbn in E; injection E as E1 E2.
        -- congruence.
        -- subst y. rewrite (Hp z) in Ez by (left; auto). discriminate.
    + rewrite IH. split.
      * intros (pre & post & -> & Hx & Hp). exists (z :: pre), post. repeat split; auto.
        intros y [<-|Hy]; auto.
      * intros (pre & post & E & Hx & Hp). destruct pre as [|y pre]; cbn in E; injection E as E1 E2.
        -- subst. congruence.
        -- exists pre, post. repeat split; auto. intros w Hw. apply Hp. right; auto.
Qed.

Lemma context_match_spec node s n r : n <= length s ->
  context_match node s 0 n = Some r <-> applies node s n r.
Proof.
  intros Hn. unfold context_match, applies. destruct (r_contexts node) as [|c0 cs] eqn:Ec.
  - split.
    + intros E; injection E as <-. auto.
    + intros [[_ ->]|(pre & m & post & E & _)]; auto. destruct pre; discriminate.
  - rewrite <- Ec. destruct (List.find _ (r_contexts node)) as [[m r']|] eqn:Ef.
    + pose proof Ef as Ef'. apply find_first in Ef as (pre & post & El & Hf & Hp). cbn [fst] in Hf.
      apply match_context_spec in Hf; auto. split.
      * intros E; injection E as <-. right. exists pre, m, post. repeat split; auto; try apply Hf.
        intros m' r'' Hi Hfit. apply Hp in Hi. cbn [fst] in Hi.
        apply match_context_spec in Hfit; auto. congruence.
      * intros [[E _]|(pre2 & m2 & post2 & E2 & Hf2 & Hp2)]; [congruence|].
        assert (List.find (fun mr => match_context (fst mr) s 0 n) (r_contexts node) = Some (m2, r)).
        { apply find_first. exists pre2, post2. repeat split; auto.
          - cbn. apply match_context_spec; auto.
          - intros [m' r''] Hi. cbn. destruct (match_context m' s 0 n) eqn:E; auto.
            apply match_context_spec in E; auto. destruct (Hp2 _ _ Hi E). }
        rewrite Ef' in H. congruence.
    + split; [discriminate|]. intros [[E _]|(pre & m & post & E & Hf & _)]; [congruence|].
      pose proof (find_none _ _ Ef (m, r)) as Hx. cbn in Hx.
      assert (Hi : In (m, r) (r_contexts node)) by (rewrite E; apply in_or_app; right; left; auto).
      apply Hx in Hi. apply match_context_spec in Hf; auto. congruence.
Qed.

Lemma step_fun t c r1 r2 : step t c r1 -> step t c r2 -> r1 = r2.
Proof. intros H1 H2. destruct H1, H2; congruence. Qed.

Lemma leads_snoc_inv t p c r : leads t (p ++ [c]) r -> exists r0, leads t p r0 /\ step r0 c r.
Proof.
  intros H. inversion H as [E|p' c' r0 r' Hl Hs E1 E2].
  - destruct p; discriminate.
  - apply app_inj_tail in E1 as [-> ->]. eauto.
Qed.
Lemma leads_nil_inv t r : leads t [] r -> r = t.
Proof. intros H. inversion H as [E|p' c' r0 r' Hl Hs E1 E2]; auto. destruct p'; discriminate. Qed.

Lemma leads_fun t p : forall r1 r2, leads t p r1 -> leads t p r2 -> r1 = r2.
Proof.
  induction p as [|c p IH] using rev_ind; intros r1 r2 H1 H2.
  - apply leads_nil_inv in H1, H2. congruence.
  - apply leads_snoc_inv in H1 as (a & Ha & Sa), H2 as (b & Hb & Sb).
    rewrite (IH _ _ Ha Hb) in Sa. eapply step_fun; eauto.
Qed.
Lemma leads_prefix t p q r : leads t (p ++ q) r -> exists r0, leads t p r0.
Proof.
  revert r. induction q as [|c q IH] using rev_ind; intros r H.
  - rewrite app_nil_r in H. eauto.
  - rewrite app_assoc in H. apply leads_snoc_inv in H as (a & Ha & _). eauto.
Qed.

(** the part of the loop that finds the next node *)
Lemma next_node curr c :
  match (if dmem streq (r_kids curr) [c] then Some curr
         else match r_default curr with
              | Some d => match r_kids d with [] => None | _ => Some d end
              | None => None
              end) with
  | None => forall r, ~ step curr c r
  | Some cu => match dget streq (r_kids cu) [c] with
               | Some r => step curr c r
               | None => r_default curr <> None /\ forall r, ~ step curr c r
               end
  end.
Proof.
  unfold dmem. destruct (dget streq (r_kids curr) [c]) as [r|] eqn:E.
  - rewrite E. constructor; auto.
  - destruct (r_default curr) as [d|] eqn:Ed.
    + destruct (r_kids d) as [|kd ks] eqn:Ek.
      * intros r H. inversion H; subst; try congruence.
        assert (d0 = d) by congruence. subst. rewrite Ek in *. discriminate.
      * rewrite Ek. rewrite <- Ek. destruct (dget streq (r_kids d) [c]) as [r|] eqn:E2.
        { eapply step_default; eauto. }
        { split; [discriminate|]. intros r H. inversion H; subst; try congruence. }
    + intros r H. inversion H; subst; congruence.
Qed.

Lemma firstn_S_app {A} (p : list A) c q : firstn (S (length p)) (p ++ c :: q) = p ++ [c].
Proof.
  rewrite firstn_app, firstn_all2 by lia.
  replace (S (length p) - length p) with 1 by lia. reflexivity.
Qed.

Lemma no_longer t s pre curr c rest : s = pre ++ c :: rest -> leads t pre curr ->
  (forall r, ~ step curr c r) -> forall m r, length pre < m -> ~ rule_for t s m r.
Proof.
  intros Hs Hl Hn m r Hm ([H1 H2] & node & Hlead & _).
  rewrite Hs in Hlead.
  assert (E : firstn m (pre ++ c :: rest) = (pre ++ [c]) ++ firstn (m - S (length pre)) rest).
  { rewrite firstn_app, firstn_all2 by lia.
    replace (m - length pre) with (S (m - S (length pre))) by lia.
    cbn [firstn]. rewrite <- app_assoc. reflexivity. }
  rewrite E in Hlead. apply leads_prefix in Hlead as (r0 & Hl0).
  apply leads_snoc_inv in Hl0 as (r1 & Hl1 & Hst).
  rewrite (leads_fun _ _ _ _ Hl1 Hl) in Hst. eapply Hn; eauto.
Qed.

Lemma match_loop_spec t s : forall rest pre curr last lastind o n,
  match_loop false s curr rest (length pre) last lastind = Ok (o, n) ->
  s = pre ++ rest -> leads t pre curr ->
  (o = last /\ n = lastind /\ forall m r, length pre < m -> ~ rule_for t s m r) \/
  (exists r, o = Some r /\ length pre < n /\ longest t s n r).
Proof.
  induction rest as [|c rest IH]; intros pre curr last lastind o n; cbn [match_loop andb].
  - intros E Hs Hl. injection E as <- <-. left. repeat split; auto.
    intros m r Hm ([H1 H2] & _). rewrite Hs, app_nil_r in H2. lia.
  - intros E Hs Hl. pose proof (next_node curr c) as HN.
    destruct (if dmem streq (r_kids curr) [c] then Some curr else _) as [cu|].
    + destruct (dget streq (r_kids cu) [c]) as [nx|]; [|discriminate].
      assert (Hl' : leads t (pre ++ [c]) nx) by (econstructor; eauto).
      assert (Hs' : s = (pre ++ [c]) ++ rest) by (rewrite Hs, <- app_assoc; auto).
      assert (Hlen : S (length pre) = length (pre ++ [c])) by (rewrite app_length; cbn; lia).
      assert (Hfst : firstn (S (length pre)) s = pre ++ [c]) by (rewrite Hs; apply firstn_S_app).
      assert (Hls : S (length pre) <= length s) by (rewrite Hs, app_length; cbn; lia).
      cbn zeta in E. destruct (r_rule nx) eqn:Er.
      * destruct (context_match nx s 0 (S (length pre))) as [r0|] eqn:Ec.
        { rewrite Hlen in E. apply (IH (pre ++ [c])) in E as [(-> & -> & Hn)|(r & -> & Hn & Hx)]; auto.
          - right. exists r0. rewrite <- Hlen. split; auto. split; [lia|]. split.
            + split; [lia|]. exists nx. rewrite Hfst. apply context_match_spec in Ec; auto.
            + intros m r' Hr'. destruct (Nat.le_gt_cases m (S (length pre))); auto.
              destruct (Hn m r'); auto; lia.
          - right. exists r. split; auto. split; auto. lia. }
        { rewrite Hlen in E. apply (IH (pre ++ [c])) in E as [(-> & -> & Hn)|(r & -> & Hn & Hx)]; auto.
          - left. repeat split; auto. intros m r Hm Hr.
            destruct (Nat.eq_dec m (S (length pre))) as [->|].
            + destruct Hr as (_ & node & Hln & _ & Hcm). rewrite Hfst in Hln.
              rewrite (leads_fun _ _ _ _ Hln Hl') in Hcm. apply context_match_spec in Hcm; auto. congruence.
            + eapply Hn; [|eauto]. lia.
          - right. exists r. split; auto. split; auto. lia. }
      * rewrite Hlen in E. apply (IH (pre ++ [c])) in E as [(-> & -> & Hn)|(r & -> & Hn & Hx)]; auto.
        { left. repeat split; auto. intros m r Hm Hr.
          destruct (Nat.eq_dec m (S (length pre))) as [->|].
          - destruct Hr as (_ & node & Hln & Hrn & _). rewrite Hfst in Hln.
            rewrite (leads_fun _ _ _ _ Hln Hl') in Hrn. congruence.
          - eapply Hn; [|eauto]. lia. }
        { right. exists r. split; auto. split; auto. lia. }
    + injection E as <- <-. left. repeat split; auto. eapply no_longer; eauto.
Qed.

(** C43: the rule found is that of the longest prefix that leads to a rule that applies, and
    exactly that prefix is used up; otherwise nothing is found and nothing is used up. *)
Theorem C43_match : forall t s o n,
  rules_match t s false false = Ok (o, n) ->
  match o with
  | Some r => longest t s n r
  | None => n = 0 /\ no_rule t s
  end.
Proof.
  intros t s o n E. unfold rules_match in E.
  apply (match_loop_spec t s s []) in E as [(-> & -> & H)|(r & -> & _ & H)]; auto; [|constructor].
  split; auto. intros m r Hr. apply (H m r); auto. destruct Hr as [[H1 _] _]. cbn. lia.
Qed.

(** Without defaults a match never fails. *)
Lemma match_loop_ok partial t s : no_defaults t -> forall rest pre curr ind last lastind,
  leads t pre curr -> exists o n, match_loop partial s curr rest ind last lastind = Ok (o, n).
Proof.
  intros Hd. induction rest as [|c rest IH]; intros pre curr ind last lastind Hl; cbn [match_loop].
  - destruct (partial && _)%bool; eauto.
  - pose proof (next_node curr c) as HN.
    destruct (if dmem streq (r_kids curr) [c] then Some curr else _) as [cu|]; eauto.
    destruct (dget streq (r_kids cu) [c]) as [nx|].
    + assert (Hl' : leads t (pre ++ [c]) nx) by (econstructor; eauto).
      cbn zeta. destruct (r_rule nx); [destruct (context_match _ _ _ _)|]; eapply IH; eauto.
    + destruct HN as [HN _]. destruct (HN (Hd _ _ Hl)).
Qed.

Theorem C43_total : forall t s partial, no_defaults t ->
  exists o n, rules_match t s partial false = Ok (o, n).
Proof.
  intros t s partial Hd. unfold rules_match.
  eapply match_loop_ok; eauto. constructor.
Qed.

(** C43: a rule with a context before it never applies: matching is given the text from the
    current position on only. *)
Theorem C43_before_never : forall b a s n, b <> [] -> match_context (b, a) s 0 n = false.
Proof. intros [|c b] a s n H; [congruence|]. reflexivity. Qed.

(** C43: hiding partial matches changes the result exactly when the whole input is the
    beginning of something longer. *)
Lemma match_loop_partial t s : forall rest pre curr last lastind o n,
  match_loop true s curr rest (length pre) last lastind = Ok (o, n) ->
  s = pre ++ rest -> leads t pre curr ->
  (waiting t s /\ o = None /\ n = length s) \/
  (~ waiting t s /\ match_loop false s curr rest (length pre) last lastind = Ok (o, n)).
Proof.
  induction rest as [|c rest IH]; intros pre curr last lastind o n; cbn [match_loop andb].
  - intros E Hs Hl. rewrite app_nil_r in Hs. subst pre.
    destruct (r_kids curr) as [|kk ks] eqn:Ek; cbn [length Nat.eqb negb] in E.
    + right. split; auto. intros (node & Hn & Hk). rewrite (leads_fun _ _ _ _ Hn Hl) in Hk. congruence.
    + left. injection E as <- <-. split; auto. exists curr. split; auto. congruence.
  - intros E Hs Hl. pose proof (next_node curr c) as HN.
    destruct (if dmem streq (r_kids curr) [c] then Some curr else _) as [cu|].
    + destruct (dget streq (r_kids cu) [c]) as [nx|]; [|discriminate].
      assert (Hl' : leads t (pre ++ [c]) nx) by (econstructor; eauto).
      assert (Hs' : s = (pre ++ [c]) ++ rest) by (rewrite Hs, <- app_assoc; auto).
      assert (Hlen : S (length pre) = length (pre ++ [c])) by (rewrite app_length; cbn; lia).
      rewrite Hlen in *. cbn zeta in *.
      destruct (r_rule nx); [destruct (context_match _ _ _ _)|]; eapply IH; eauto.
    + right. split; auto. intros (node & Hn & Hk). rewrite Hs in Hn.
      replace (pre ++ c :: rest) with ((pre ++ [c]) ++ rest) in Hn by (rewrite <- app_assoc; auto).
      apply leads_prefix in Hn as (r0 & Hl0). apply leads_snoc_inv in Hl0 as (r1 & Hl1 & Hst).
      rewrite (leads_fun _ _ _ _ Hl1 Hl) in Hst. eapply HN; eauto.
Qed.

Theorem C43_partial : forall t s o n,
  rules_match t s true false = Ok (o, n) ->
  (waiting t s /\ o = None /\ n = length s) \/
  (~ waiting t s /\ match o with Some r => longest t s n r | None => n = 0 /\ no_rule t s end).
Proof.
  intros t s o n E. unfold rules_match in E.
  apply (match_loop_partial t s s []) in E as [H|[H E]]; auto; [|constructor].
  right. split; auto. apply C43_match. auto.
Qed.

(** ** The layer of replacements *)

Lemma match_hide t s p o n : rules_match t s p false = Ok (o, n) ->
  (p = true /\ waiting t s /\ o = None /\ n = length s) \/
  ((p = true -> ~ waiting t s) /\
   match o with Some r => longest t s n r | None => n = 0 /\ no_rule t s end).
Proof.
  destruct p; intros E.
  - apply C43_partial in E as [H|[H1 H2]]; [left|right]; tauto.
  - right. split; [discriminate|]. apply C43_match. auto.
Qed.

Lemma results_out c i n x : i <> SBase -> l_out (lget (results c i n x) i) = l_out (lget c i) ++ x.
Proof. intros Hi. rewrite results_get by auto. cbn zeta. destruct (Z.ltb _ _); reflexivity. Qed.

Lemma simple_loop_spec t p i : i <> SBase -> forall fuel rest c b c',
  simple_loop fuel t p false false i rest c = Ok (b, c') ->
  (forall j, j <> i -> lget c' j = lget c j) /\
  if b then exists u, rewrites p t rest u /\ l_out (lget c' i) = l_out (lget c i) ++ u
  else meets_error p t rest.
Proof.
  intros Hi. induction fuel as [|f IH]; intros rest c b c' E.
  - destruct rest as [|x rest]; [|discriminate]. injection E as <- <-.
    split; auto. exists []. rewrite app_nil_r. split; auto. constructor.
  - destruct rest as [|x rest].
    + injection E as <- <-. split; auto. exists []. rewrite app_nil_r. split; auto. constructor.
    + cbn [simple_loop] in E.
      destruct (rules_match t (x :: rest) p false) as [[o n]|] eqn:Em; cbn [bind] in E; [|discriminate].
      apply match_hide in Em as [(Hp & Hw & -> & ->)|[Hw Hm]].
      * cbn [length Nat.eqb andb] in E. injection E as <- <-. split; auto.
        exists []. rewrite app_nil_r. split; auto. apply rw_wait; auto. discriminate.
      * destruct o as [r|].
        { destruct (is_error r) eqn:Er.
          - injection E as <- <-. split; auto. eapply me_here; eauto.
          - apply IH in E as [K1 K2]. split.
            + intros j Hj. rewrite K1 by auto. apply results_other; auto.
            + destruct b.
              * destruct K2 as (u & Hu & Ho). exists (attr_or r (lit "to") [] ++ u). split.
                { eapply rw_rule; eauto. }
                { rewrite Ho, results_out, app_assoc by auto. reflexivity. }
              * eapply me_rule; eauto. }
        { destruct Hm as [-> Hn]. cbn [Nat.eqb negb andb] in E.
          apply IH in E as [K1 K2]. split.
          - intros j Hj. rewrite K1 by auto. apply results_other; auto.
          - destruct b.
            + destruct K2 as (u & Hu & Ho). exists (x :: u). split.
              { apply rw_copy; auto. }
              { rewrite Ho, results_out, <- app_assoc by auto. reflexivity. }
            + apply me_copy; auto. }
Qed.

(** C44: a layer of replacements keeps what it had settled and adds what its table makes of
    the rest of its input, without touching the other layers; it gives up exactly when it
    meets a rule with an error. *)
Theorem C44_rewrites : forall t hide i c b c', i <> SBase ->
  process_simple t hide false false i c = Ok (b, c') ->
  (forall j, j <> i -> lget c' j = lget c j) /\
  (if b then exists u, rewrites hide t (skipn (l_off (lget c i)) (input c i)) u /\
                       l_out (lget c' i) = l_stable (lget c i) ++ u
   else meets_error hide t (skipn (l_off (lget c i)) (input c i))).
Proof.
  intros t hide i c b c' Hi E. unfold process_simple in E.
  assert (Hoth : forall j, j <> i -> lget (reset_output c i) j = lget c j) by (intros; apply reset_other; auto).
  assert (Hin : input (reset_output c i) i = input c i).
  { unfold input. rewrite Hoth; auto. apply not_eq_sym, before_neq; auto. }
  assert (Hg : lget (reset_output c i) i =
               mkLayer (l_stable (lget c i)) (l_stable (lget c i)) (l_off (lget c i))) by apply lget_lset.
  rewrite Hin, Hg in E. cbn [l_off] in E.
  apply simple_loop_spec in E as [K1 K2]; auto. rewrite Hg in K2. cbn [l_out] in K2.
  split; auto. intros j Hj. rewrite K1 by auto. auto.
Qed.

Lemma match_found t s p f r n : rules_match t s p f = Ok (Some r, n) -> 1 <= n.
Proof.
  assert (H : forall rest curr ind last lastind o m,
    match_loop p s curr rest ind last lastind = Ok (o, m) ->
    (last <> None -> 1 <= lastind) -> o <> None -> 1 <= m).
  { induction rest as [|c rest IH]; intros curr ind last lastind o m; cbn [match_loop].
    - destruct (p && _)%bool; intros E; injection E as <- <-; auto. congruence.
    - destruct (if dmem streq (r_kids curr) [c] then Some curr else _) as [cu|].
      + destruct (dget streq (r_kids cu) [c]) as [nx|]; [|discriminate]. cbn zeta.
        destruct (r_rule nx); [destruct (context_match _ _ _ _)|]; intros E Hl Ho; eapply IH; eauto.
        intros _; lia.
      + intros E; injection E as <- <-. auto. }
  unfold rules_match. intros E. destruct f.
  - destruct s as [|c s']; [discriminate|]. eapply H; eauto; congruence.
  - eapply H; eauto; congruence.
Qed.

(** C44: for every table and every setting the layer comes to an end. *)
Lemma match_loop_no_fuel p s : forall rest curr ind last lastind,
  match_loop p s curr rest ind last lastind <> Raise OutOfFuel.
Proof.
  induction rest as [|c rest IH]; intros curr ind last lastind; cbn [match_loop].
  - destruct (p && _)%bool; discriminate.
  - destruct (if dmem streq (r_kids curr) [c] then Some curr else _) as [cu|]; [|discriminate].
    destruct (dget streq (r_kids cu) [c]) as [nx|]; [|discriminate]. cbn zeta.
    destruct (r_rule nx); [destruct (context_match _ _ _ _)|]; apply IH.
Qed.
Lemma match_no_fuel t s p f : rules_match t s p f <> Raise OutOfFuel.
Proof.
  unfold rules_match. destruct f; [destruct s; [discriminate|]|]; apply match_loop_no_fuel.
Qed.

Theorem C44_terminates : forall t hide omit fallback i c,
  process_simple t hide omit fallback i c <> Raise OutOfFuel.
Proof.
  intros t p f fb i c. unfold process_simple.
  set (rest := skipn _ _). generalize (reset_output c i). intros c1.
  assert (H : length rest <= length rest) by lia. revert H.
  generalize (length rest) at 2 3. intros fuel. generalize rest c1. clear.
  induction fuel as [|fuel IH]; intros rest c; destruct rest as [|x rest]; cbn [length simple_loop];
    try discriminate; try lia.
  intros Hl. pose proof (match_no_fuel t (x :: rest) p f) as Hm.
  destruct (rules_match t (x :: rest) p f) as [[o n]|e] eqn:Em; cbn [bind]; [|congruence].
  destruct o as [r|].
  - destruct (is_error r); [discriminate|]. apply match_found in Em. apply IH.
    rewrite skipn_length. cbn [length]. lia.
  - destruct (Nat.eqb n 0 && negb fb)%bool; [|discriminate]. apply IH. lia.
Qed.

(** Without defaults it always succeeds or meets an error. *)
Theorem C44_total : forall t hide fallback i c, no_defaults t ->
  exists b c', process_simple t hide false fallback i c = Ok (b, c').
Proof.
  intros t p fb i c Hd. unfold process_simple.
  set (rest := skipn _ _). generalize (reset_output c i). intros c1.
  assert (H : length rest <= length rest) by lia. revert H.
  generalize (length rest) at 2 3. intros fuel. generalize rest c1. clear -Hd.
  induction fuel as [|fuel IH]; intros rest c; destruct rest as [|x rest]; cbn [length simple_loop];
    try (intros; eauto; fail); try lia.
  intros Hl. destruct (C43_total t (x :: rest) p Hd) as (o & n & Em). rewrite Em. cbn [bind].
  destruct o as [r|].
  - destruct (is_error r); [eauto|]. apply match_found in Em. apply IH.
    rewrite skipn_length. cbn [length]. lia.
  - destruct (Nat.eqb n 0 && negb fb)%bool; [|eauto]. apply IH. lia.
Qed.

(** [rewrites] determines the text. *)
Lemma longest_fun t s n1 n2 r1 r2 : longest t s n1 r1 -> longest t s n2 r2 -> n1 = n2 /\ r1 = r2.
Proof.
  intros [H1 M1] [H2 M2].
  assert (n1 = n2) by (apply Nat.le_antisymm; eauto). subst n2. split; auto.
  destruct H1 as ([_ Hn] & a & La & _ & Ca), H2 as (_ & b & Lb & _ & Cb).
  rewrite (leads_fun _ _ _ _ La Lb) in Ca.
  apply context_match_spec in Ca, Cb; auto. congruence.
Qed.
Lemma no_rule_nil t s n r : longest t s n r -> ~ no_rule t s.
Proof. intros [H _] Hn. eapply Hn; eauto. Qed.

Theorem C44_determined : forall hide t s u1 u2, rewrites hide t s u1 -> rewrites hide t s u2 -> u1 = u2.
Proof.
  intros hide t s u1 u2 H. revert u2.
  induction H as [|s Hh Hs Hw|s n r u Hw Hl He H IH|c s u Hw Hn H IH]; intros u2 H2.
  - inversion H2 as [|s' Hh' Hs' Hw'|s' n' r' u' Hw' Hl' He' H'|c' s' u' Hw' Hn' H']; subst; auto.
    destruct Hl' as [((? & ?) & _) _]. cbn in *. lia.
  - inversion H2 as [|s' Hh' Hs' Hw'|s' n' r' u' Hw' Hl' He' H'|c' s' u' Hw' Hn' H']; subst; auto;
      destruct (Hw' eq_refl); auto.
  - inversion H2 as [|s' Hh' Hs' Hw'|s' n' r' u' Hw' Hl' He' H'|c' s' u' Hw' Hn' H']; subst.
    + destruct Hl as [((? & ?) & _) _]. cbn in *. lia.
    + destruct (Hw eq_refl); auto.
    + destruct (longest_fun _ _ _ _ _ _ Hl Hl') as [<- <-]. f_equal; auto.
    + destruct (no_rule_nil _ _ _ _ Hl); auto.
  - inversion H2 as [|s' Hh' Hs' Hw'|s' n' r' u' Hw' Hl' He' H'|c' s' u' Hw' Hn' H']; subst.
    + destruct (Hw eq_refl); auto.
    + destruct (no_rule_nil _ _ _ _ Hl'); auto.
    + f_equal; auto.
Qed.

(** ** Typing key by key *)

(** the contexts of a replacement layer as the keys with these texts are typed *)
Fixpoint type_keys (t : rule) (hide : bool) (c : context) (texts : list pystr) : res (bool * context) :=
  match texts with
  | [] => Ok (true, c)
  | x :: texts' =>
      do (ok, c') <- process_simple t hide false false SSimple (clone c x);
      if ok then type_keys t hide c' texts' else Ok (false, c')
  end.

(** [k] characters of [s] are settled and became [w] *)
Inductive settled (t : rule) : pystr -> nat -> pystr -> Prop :=
| se_nil s : settled t s 0 []
| se_rule s n r k w : ~ waiting t s -> longest t s n r -> is_error r = false ->
    settled t (skipn n s) k w -> settled t s (n + k) (attr_or r (lit "to") [] ++ w)
| se_copy c s k w : ~ waiting t (c :: s) -> no_rule t (c :: s) ->
    settled t s k w -> settled t (c :: s) (S k) (c :: w).

Lemma settled_le t s k w : settled t s k w -> k <= length s.
Proof.
  induction 1; cbn [length]; try lia.
  rewrite skipn_length in *. destruct H0 as [((? & ?) & _) _]. lia.
Qed.

Lemma settled_snoc_rule t s k w n r : settled t s k w ->
  ~ waiting t (skipn k s) -> longest t (skipn k s) n r -> is_error r = false ->
  settled t s (k + n) (w ++ attr_or r (lit "to") []).
Proof.
  induction 1 as [s|s m r0 k w Hw Hl He Hs IH|c s k w Hw Hn Hs IH]; intros H1 H2 H3.
  - cbn [Nat.add app]. rewrite <- (Nat.add_0_r n), <- (app_nil_r (attr_or _ _ _)).
    cbn [skipn] in *. eapply se_rule; eauto. constructor.
  - rewrite <- Nat.add_assoc, <- app_assoc. eapply se_rule; eauto.
    rewrite skipn_skipn, (Nat.add_comm k m) in IH. auto.
  - cbn [skipn] in *. rewrite <- app_comm_cons. cbn [Nat.add]. apply se_copy; auto.
Qed.
Lemma settled_snoc_copy t s k w c rest : settled t s k w ->
  skipn k s = c :: rest -> ~ waiting t (c :: rest) -> no_rule t (c :: rest) ->
  settled t s (k + 1) (w ++ [c]).
Proof.
  induction 1 as [s|s m r0 k w Hw Hl He Hs IH|c0 s k w Hw Hn Hs IH]; intros H0 H1 H2.
  - cbn [skipn] in H0. subst s. apply se_copy; auto. constructor.
  - rewrite <- Nat.add_assoc, <- app_assoc. eapply se_rule; eauto.
    apply IH; auto. rewrite skipn_skipn, (Nat.add_comm k m). auto.
  - cbn [skipn] in *. rewrite <- app_comm_cons. cbn [Nat.add]. apply se_copy; auto.
Qed.

Lemma settled_rewrites t s k w u : settled t s k w -> rewrites true t (skipn k s) u ->
  rewrites true t s (w ++ u).
Proof.
  induction 1 as [s|s m r0 k w Hw Hl He Hs IH|c0 s k w Hw Hn Hs IH]; intros H0.
  - auto.
  - rewrite <- app_assoc. eapply rw_rule; eauto. apply IH. rewrite skipn_skipn, (Nat.add_comm k m). auto.
  - rewrite <- app_comm_cons. apply rw_copy; auto.
Qed.

Section Typing.
  Variable t : rule.
  Hypothesis Hd : no_defaults t.
  Hypothesis Hc : no_contexts t.

  Lemma leads_beyond s x p r : ~ waiting t s -> leads t p r ->
    length s < length p -> p <> firstn (length p) (s ++ x).
  Proof.
    intros Hw Hl Hlen Hp. apply Hw.
    assert (Hq : exists c q, p = s ++ c :: q).
    { rewrite firstn_app, firstn_all2 in Hp by lia.
      exists (hd 0%N (firstn (length p - length s) x)), (tl (firstn (length p - length s) x)).
      destruct (firstn (length p - length s) x) eqn:E.
      - rewrite app_nil_r in Hp. rewrite Hp in Hlen. lia.
      - exact Hp. }
    destruct Hq as (c & q & ->).
    replace (s ++ c :: q) with ((s ++ [c]) ++ q) in Hl by (rewrite <- app_assoc; auto).
    apply leads_prefix in Hl as (r0 & Hl). apply leads_snoc_inv in Hl as (r1 & Hl & Hs).
    exists r1. split; auto. intros Hk. destruct Hs as [r2 H|d r2 H1 H2 H3].
    - rewrite Hk in H. discriminate.
    - rewrite (Hd _ _ Hl) in H2. discriminate.
  Qed.

  Lemma waiting_app s x : s <> [] -> ~ waiting t s -> ~ waiting t (s ++ x).
  Proof.
    intros Hs Hw (node & Hl & Hk). destruct x as [|c x].
    - rewrite app_nil_r in Hl. apply Hw. exists node; auto.
    - eapply (leads_beyond s (c :: x)); eauto.
      + rewrite app_length. cbn. lia.
      + rewrite firstn_all. auto.
  Qed.

  Lemma context_match_any node p s s' n r : leads t p node ->
    applies node s n r -> applies node s' n r.
  Proof.
    intros Hl [H|(pre & m & post & E & _)]; [left; auto|].
    rewrite (Hc _ _ Hl) in E. destruct pre; discriminate.
  Qed.

  Lemma rule_for_app s x m r : ~ waiting t s ->
    rule_for t (s ++ x) m r <-> rule_for t s m r.
  Proof.
    intros Hw. unfold rule_for. split.
    - intros ([H1 H2] & node & Hl & Hr & Hcm).
      assert (Hm : m <= length s).
      { destruct (Nat.le_gt_cases m (length s)) as [|Hgt]; auto. exfalso.
        eapply (leads_beyond s x); eauto; rewrite firstn_length_le by auto; auto. }
      split; [lia|]. exists node.
      rewrite firstn_app in Hl. replace (m - length s) with 0 in Hl by lia.
      cbn [firstn] in Hl. rewrite app_nil_r in Hl.
      repeat split; auto. eapply context_match_any; eauto.
    - intros ([H1 H2] & node & Hl & Hr & Hcm). split; [rewrite app_length; lia|]. exists node.
      rewrite firstn_app. replace (m - length s) with 0 by lia.
      cbn [firstn]. rewrite app_nil_r. repeat split; auto.
      eapply context_match_any; eauto.
  Qed.
  Lemma longest_app s x n r : ~ waiting t s -> longest t s n r -> longest t (s ++ x) n r.
  Proof.
    intros Hw [H1 H2]. split.
    - apply rule_for_app; auto.
    - intros m r' H. apply (rule_for_app s x m r' Hw) in H. eauto.
  Qed.
  Lemma no_rule_app s x : ~ waiting t s -> no_rule t s -> no_rule t (s ++ x).
  Proof. intros Hw H m r Hr. apply (rule_for_app s x m r Hw) in Hr. eapply H; eauto. Qed.

  Lemma settled_app s k w x : settled t s k w -> settled t (s ++ x) k w.
  Proof.
    induction 1 as [s|s m r0 k w Hw Hl He Hs IH|c0 s k w Hw Hn Hs IH].
    - constructor.
    - assert (Hm : 1 <= m <= length s) by (destruct Hl as [(? & _) _]; auto).
      eapply se_rule; eauto.
      + apply waiting_app; auto. intros ->. cbn in Hm. lia.
      + apply longest_app; auto.
      + rewrite skipn_app. replace (m - length s) with 0 by lia. auto.
    - rewrite <- app_comm_cons. apply se_copy; auto.
      + rewrite app_comm_cons. apply waiting_app; auto. discriminate.
      + rewrite app_comm_cons. apply no_rule_app; auto.
  Qed.

  (** the layer keeps only what is settled *)
  Definition keeps (c : context) : Prop :=
    settled t (l_out (c_base c)) (l_off (c_simple c)) (l_stable (c_simple c)).

  Lemma simple_loop_keeps : forall fuel rest c c' pos,
    simple_loop fuel t true false false SSimple rest c = Ok (true, c') ->
    keeps c -> rest = skipn pos (l_out (c_base c)) -> pos <= length (l_out (c_base c)) ->
    (l_off (c_simple c) = pos \/ rest = []) ->
    keeps c' /\ l_out (c_base c') = l_out (c_base c).
  Proof.
    induction fuel as [|f IH]; intros rest c c' pos E Hk Hr Hp Hoff.
    - destruct rest as [|x rest]; [|discriminate]. injection E as <-. auto.
    - destruct rest as [|x rest]; [injection E as <-; auto|].
      destruct Hoff as [Hoff|Hoff]; [|discriminate].
      cbn [simple_loop] in E.
      destruct (rules_match t (x :: rest) true false) as [[o n]|] eqn:Em; cbn [bind] in E; [|discriminate].
      apply C43_partial in Em as [(Hw & -> & ->)|[Hw Hm]].
      + cbn [length Nat.eqb andb] in E. injection E as <-. auto.
      + assert (HR : forall n y, 1 <= n <= length (x :: rest) ->
                   settled t (l_out (c_base c)) (pos + n) (l_stable (c_simple c) ++ y) ->
                   keeps (results c SSimple n y) /\
                   l_out (c_base (results c SSimple n y)) = l_out (c_base c) /\
                   (l_off (c_simple (results c SSimple n y)) = pos + n \/ skipn (pos + n) (l_out (c_base c)) = [])).
        { intros n0 y Hn0 Hset.
          assert (Hb : c_base (results c SSimple n0 y) = c_base c) by (apply (results_other c SSimple n0 y SBase); discriminate).
          pose proof (results_get c SSimple n0 y) as Hg. cbn zeta in Hg.
          change (lget (results c SSimple n0 y) SSimple) with (c_simple (results c SSimple n0 y)) in Hg.
          specialize (Hg ltac:(discriminate)). cbn [lget] in Hg. unfold input in Hg. cbn [before lget prev_left] in Hg.
          unfold keeps. rewrite Hg, Hb. rewrite Hoff.
          assert (Hl0 : length (x :: rest) = length (l_out (c_base c)) - pos) by (rewrite Hr; apply skipn_length).
          destruct (Z.ltb_spec 0 (Z.of_nat (length (l_out (c_base c))) - Z.of_nat pos - Z.of_nat n0)); cbn [l_off l_stable].
          - repeat split; auto.
          - split; [unfold keeps in Hk; rewrite Hoff in Hk; auto|]. split; auto. right. apply skipn_all2. lia. }
        unfold keeps in Hk. rewrite Hoff in Hk.
        destruct o as [r|].
        * destruct (is_error r) eqn:Er; [discriminate|].
          assert (Hn : 1 <= n <= length (x :: rest)) by (destruct Hm as [(? & _) _]; auto).
          destruct (HR n (attr_or r (lit "to") []) Hn) as (K1 & K2 & K3).
          { eapply settled_snoc_rule; eauto; rewrite <- Hr; auto. }
          assert (Hl0 : length (x :: rest) = length (l_out (c_base c)) - pos) by (rewrite Hr; apply skipn_length).
          apply (IH _ _ _ (pos + n)) in E; auto.
          -- rewrite K2 in E. auto.
          -- rewrite K2, Hr, skipn_skipn. f_equal. lia.
          -- rewrite K2. lia.
          -- destruct K3 as [K3|K3]; auto. right. rewrite Hr, skipn_skipn, (Nat.add_comm n). auto.
        * destruct Hm as [-> Hn0]. cbn [Nat.eqb negb andb] in E.
          destruct (HR 1 [x]) as (K1 & K2 & K3).
          { cbn; lia. }
          { eapply settled_snoc_copy; eauto. }
          assert (Hl0 : length (x :: rest) = length (l_out (c_base c)) - pos) by (rewrite Hr; apply skipn_length).
          assert (Hrest : rest = skipn (pos + 1) (l_out (c_base c))).
          { rewrite Nat.add_comm, <- skipn_skipn, <- Hr. reflexivity. }
          apply (IH _ _ _ (pos + 1)) in E; auto.
          -- rewrite K2 in E. auto.
          -- rewrite K2. auto.
          -- rewrite K2. cbn in Hl0. lia.
          -- destruct K3 as [K3|K3]; auto. right. congruence.
  Qed.

  Lemma process_keeps c c' x :
    keeps c -> process_simple t true false false SSimple (clone c x) = Ok (true, c') ->
    keeps c' /\ l_out (c_base c') = l_out (c_base c) ++ x /\
    rewrites true t (l_out (c_base c) ++ x) (l_out (c_simple c')).
  Proof.
    intros Hk E.
    pose proof (C44_rewrites t true SSimple (clone c x) true c' ltac:(discriminate) E) as [_ (u & Hu & Ho)].
    cbn in Hu, Ho.
    assert (Hk1 : keeps (clone c x)) by (unfold keeps; cbn; apply settled_app; auto).
    unfold process_simple in E.
    apply (simple_loop_keeps _ _ _ _ (l_off (c_simple c))) in E; auto.
    - destruct E as [K1 K2]. split; auto. split; auto.
      rewrite Ho. eapply settled_rewrites; eauto.
    - cbn. apply settled_le in Hk1. auto.
  Qed.

  (** C55: when partial matches are hidden, typing a text key by key shows the same as having
      all of it at once: what the table makes of the whole text. *)
  Theorem C55_typing : forall texts c,
    type_keys t true (new_context []) texts = Ok (true, c) ->
    rewrites true t (concat texts) (l_out (c_simple c)).
  Proof.
    assert (H : forall texts c0 c, keeps c0 -> rewrites true t (l_out (c_base c0)) (l_out (c_simple c0)) ->
              type_keys t true c0 texts = Ok (true, c) ->
              rewrites true t (l_out (c_base c0) ++ concat texts) (l_out (c_simple c))).
    { induction texts as [|x texts IH]; intros c0 c Hk Hr E.
      - injection E as <-. cbn. rewrite app_nil_r. auto.
      - cbn [type_keys] in E.
        destruct (process_simple t true false false SSimple (clone c0 x)) as [[ok c1]|] eqn:Ep;
          cbn [bind] in E; [|discriminate].
        destruct ok; [|discriminate].
        destruct (process_keeps c0 c1 x Hk Ep) as (K1 & K2 & K3).
        cbn [concat]. rewrite app_assoc, <- K2. apply IH; auto. rewrite K2. auto. }
    intros texts c E. apply (H texts (new_context [])) in E; auto.
    - constructor.
    - constructor.
  Qed.
End Typing.

(** the same keys typed together *)
Corollary C55_pasting : forall t texts c c', no_defaults t -> no_contexts t ->
  type_keys t true (new_context []) texts = Ok (true, c) ->
  type_keys t true (new_context []) [concat texts] = Ok (true, c') ->
  l_out (c_simple c) = l_out (c_simple c').
Proof.
  intros t texts c c' Hd Hc E1 E2. apply C55_typing in E1, E2; auto.
  cbn [concat] in E2. rewrite app_nil_r in E2. eapply C44_determined; eauto.
Qed.

(** A table with the rules abc -> x and ad -> y. *)
Definition leaf (to : pystr) : rule := Rule true [] None [] [(lit "to", to)].
Definition ex_table : rule :=
  Rule false [(lit "a", Rule false [(lit "b", Rule false [(lit "c", leaf (lit "x"))] None [] []);
                                    (lit "d", leaf (lit "y"))] None [] [])] None [] [].
Lemma ex_leads p r : leads ex_table p r -> r_default r = None /\ r_contexts r = [] /\
  (p = [] /\ r = ex_table \/ In p [lit "a"; lit "ab"; lit "abc"; lit "ad"]).
Proof.
  assert (H : leads ex_table p r ->
    In (p, r) [([], ex_table);
               (lit "a", Rule false [(lit "b", Rule false [(lit "c", leaf (lit "x"))] None [] []);
                                    (lit "d", leaf (lit "y"))] None [] []);
               (lit "ab", Rule false [(lit "c", leaf (lit "x"))] None [] []);
               (lit "abc", leaf (lit "x")); (lit "ad", leaf (lit "y"))]).
  { induction 1 as [|p c r r' Hl IH Hs]; [left; auto|].
    assert (Hk : dget streq (r_kids r) [c] = Some r').
    { destruct Hs as [|d r'' H1 H2 H3]; auto.
      repeat (destruct IH as [IH|IH]; [injection IH as <- <-; discriminate H2|]). destruct IH. }
    clear Hs. repeat (destruct IH as [IH|IH]; [injection IH as <- <-; cbn in Hk;
       repeat match type of Hk with
              | (if (?a =? ?b)%N && true then _ else _) = _ => destruct (N.eqb_spec a b); [subst; injection Hk as <-; cbn; auto 7|cbn in Hk]
              end; try discriminate|]). destruct IH. }
  intros Hl. specialize (H Hl).
  repeat (destruct H as [H|H]; [injection H as <- <-; cbn; auto 8|]). destruct H.
Qed.
Example ex_no_defaults : no_defaults ex_table.
Proof. intros p r H. apply ex_leads in H. tauto. Qed.
Example ex_no_contexts : no_contexts ex_table.
Proof. intros p r H. apply ex_leads in H. tauto. Qed.
(** hidden until decided *)
Example ex_typing :
  map (fun n => match type_keys ex_table true (new_context []) (firstn n [lit "a"; lit "b"; lit "c"; lit "a"; lit "d"; lit "q"]) with
                | Ok (true, c) => l_out (c_simple c) | _ => lit "?" end) [1; 2; 3; 4; 5; 6]
  = [[]; []; lit "x"; lit "x"; lit "xy"; lit "xyq"] := eq_refl.

(** C55 fails when partial matches are shown: a rule for three characters does not apply when
    they are typed one by one, because the first is settled when the second arrives. *)
Theorem C55_shown_refuted :
  exists t texts c c', no_defaults t /\ no_contexts t /\
    type_keys t false (new_context []) texts = Ok (true, c) /\
    type_keys t false (new_context []) [concat texts] = Ok (true, c') /\
    l_out (c_simple c) = lit "abc" /\ l_out (c_simple c') = lit "x".
Proof.
  exists ex_table, [lit "a"; lit "b"; lit "c"]. eexists. eexists.
  split; [apply ex_no_defaults|]. split; [apply ex_no_contexts|].
  split; [reflexivity|]. split; [reflexivity|]. split; reflexivity.
Qed.

(** ** The layer of reordering *)

Section Reordering.
  Variable ws : N -> bool.
  Variable lower : pystr -> pystr.
  Variable pyint : pystr -> option Z.

  Lemma zip_codes_length n : forall os bs ts ps l, zip_codes n os bs ts ps = Ok l -> length l = n.
  Proof.
    induction n as [|n IH]; intros os bs ts ps l; cbn [zip_codes].
    - intros E; injection E as <-. auto.
    - destruct os, bs, ts, ps; try discriminate.
      destruct (zip_codes n os bs ts ps) eqn:E; cbn [bind]; [|discriminate].
      intros E2; injection E2 as <-. cbn. f_equal. eauto.
  Qed.

  Lemma codes_length t rest l : rest <> [] -> get_charcodes ws lower pyint t rest = Ok l ->
    1 <= length l <= length rest.
  Proof.
    intros Hr. unfold get_charcodes.
    destruct (rules_match t rest false false) as [[o n]|] eqn:Em; cbn [bind]; [|discriminate].
    apply C43_match in Em. destruct o as [r|].
    - destruct Em as [(Hn & _) _].
      repeat match goal with |- (do _ <- ?x; _) = _ -> _ => destruct x; cbn [bind]; [|discriminate] end.
      intros E. apply zip_codes_length in E. lia.
    - intros E; injection E as <-. destruct rest; [congruence|]. cbn. lia.
  Qed.

  Lemma scan_codes_le l : fst (scan_codes l) <= length l.
  Proof.
    induction l as [|c l IH]; cbn [scan_codes length]; auto.
    destruct (cc_prebase c || Z.eqb (cc_primary c) 0)%bool; cbn; [lia|].
    destruct (scan_codes l); cbn in *. lia.
  Qed.
  Lemma scan_codes_all l : snd (scan_codes l) = false -> fst (scan_codes l) = length l.
  Proof.
    induction l as [|c l IH]; cbn [scan_codes length]; auto.
    destruct (cc_prebase c || Z.eqb (cc_primary c) 0)%bool; cbn; [discriminate|].
    destruct (scan_codes l); cbn in *. auto.
  Qed.
  Lemma scan_start_le t : forall fuel rest n,
    scan_start ws lower pyint fuel t rest = Ok n -> n <= length rest.
  Proof.
    induction fuel as [|f IH]; intros rest n; destruct rest as [|x rest]; cbn [scan_start];
      try (intros E; injection E as <-; cbn; lia); try discriminate.
    destruct (get_charcodes ws lower pyint t (x :: rest)) as [codes|] eqn:Ec; cbn [bind]; [|discriminate].
    apply codes_length in Ec; [|discriminate]. pose proof (scan_codes_le codes) as Hl.
    destruct (scan_codes codes) as [k b]. cbn [fst] in Hl. destruct b.
    - intros E; injection E as <-. lia.
    - destruct (scan_start ws lower pyint f t (skipn k (x :: rest))) as [m|] eqn:Es; cbn [bind]; [|discriminate].
      apply IH in Es. rewrite skipn_length in Es. intros E; injection E as <-. lia.
  Qed.

  Lemma map_fst_combine {A B} : forall (s : list A) (k : list B), length s = length k ->
    map fst (combine s k) = s.
  Proof. induction s; intros [|y k] H; try discriminate; cbn; auto. f_equal. auto. Qed.

  Lemma sort_run_perm s k out : length s = length k -> s <> [] -> sort_run s k = Ok out -> Permutation s out.
  Proof.
    intros Hl Hs. unfold sort_run. destruct (existsb _ k).
    - intros E; injection E as <-.
      rewrite <- (map_fst_combine s k Hl) at 1. apply Permutation_map, isort_perm.
    - destruct s; [congruence|discriminate].
  Qed.

  Lemma slice_length {A} (l : list A) a b : a <= b <= length l ->
    length (firstn (b - a) (skipn a l)) = b - a.
  Proof. intros H. rewrite firstn_length, skipn_length. lia. Qed.
  Lemma slice_split (s : pystr) a b c : a <= b <= c -> slice s a c = slice s a b ++ slice s b c.
  Proof.
    intros H. unfold slice.
    replace (skipn b s) with (skipn (b - a) (skipn a s)) by (rewrite skipn_skipn; f_equal; lia).
    generalize (skipn a s). intros l.
    replace (c - a) with ((b - a) + (c - b)) by lia.
    generalize (b - a), (c - b). clear. intros n m. revert l.
    induction n as [|n IH]; intros [|x l]; cbn; rewrite ?firstn_nil; auto. f_equal. apply IH.
  Qed.

  (** from position p0, where the layer had output out0, up to the start of the current run *)
  Record sorted_upto (instr : pystr) (i : slot) (p0 p : nat) (out0 : pystr) (c0 : context)
         (st : rstate * context) : Prop := mkSorted {
    su_start : p0 <= rr_start (fst st) <= p;
    su_p : p <= length instr;
    su_keys : length (rr_keys (fst st)) = p - rr_start (fst st);
    su_init : rr_start (fst st) = p -> rr_init (fst st) = true;
    su_other : forall j, j <> i -> lget (snd st) j = lget c0 j;
    su_out : exists w, l_out (lget (snd st) i) = out0 ++ w /\
                       Permutation (slice instr p0 (rr_start (fst st))) w }.

  Lemma reorder_char_sorted instr i p0 p out0 c0 c st st' : i <> SBase ->
    sorted_upto instr i p0 p out0 c0 st -> p < length instr ->
    reorder_char instr i p c st = Ok st' -> sorted_upto instr i p0 (S p) out0 c0 st'.
  Proof.
    intros Hi [H1 H2 H3 H4 H5 H6] Hp E. destruct st as [r ctx]. cbn [fst snd] in *.
    unfold reorder_char in E.
    destruct (if (negb (Z.eqb (cc_tertiary c) 0) && Nat.ltb (rr_start r) p)%bool then _ else _)
      as [[key prim] base].
    set (zero := (Z.eqb (sk_primary key) 0 && Z.eqb (sk_tertiary key) 0)%bool) in *.
    set (prevzero := match rev (rr_keys r) with k :: _ => Z.eqb (sk_primary k) 0 | [] => false end) in *.
    set (init := if ((negb zero && negb (cc_prebase c)) ||
                    (cc_prebase c && Nat.ltb (rr_start r) p && prevzero))%bool
                then false else rr_init r) in *. clearbody prevzero.
    cbn zeta in E. destruct (negb init && (zero || cc_prebase c))%bool eqn:Eb.
    - assert (Hlt : rr_start r < p).
      { destruct (Nat.eq_dec (rr_start r) p) as [Heq|]; [|lia]. exfalso.
        assert (Hf : Nat.ltb (rr_start r) p = false) by (apply Nat.ltb_ge; lia).
        unfold init in Eb. rewrite (H4 Heq), Hf in Eb.
        destruct zero, (cc_prebase c); cbn in Eb; discriminate. }
      destruct (sort_run (slice instr (rr_start r) p) (rr_keys r)) as [out|] eqn:Es; cbn [bind] in E; [|discriminate].
      injection E as <-.
      assert (Hsl : length (slice instr (rr_start r) p) = p - rr_start r) by (apply slice_length; lia).
      apply sort_run_perm in Es; [|congruence|intros C; rewrite C in Hsl; cbn in Hsl; lia].
      constructor; cbn [fst snd rr_start rr_keys rr_init length]; auto; try lia.
      + intros j Hj. rewrite results_other by auto. auto.
      + destruct H6 as (w & Ho & Hw). exists (w ++ out). rewrite results_out, Ho, app_assoc by auto.
        split; auto. rewrite (slice_split instr p0 (rr_start r) p) by lia. apply Permutation_app; auto.
    - injection E as <-. constructor; cbn [fst snd rr_start rr_keys rr_init]; auto; try lia.
      rewrite app_length, H3. cbn [length]. lia.
  Qed.

  Lemma reorder_codes_sorted instr i p0 out0 c0 : i <> SBase -> forall cs p st st',
    sorted_upto instr i p0 p out0 c0 st -> p + length cs <= length instr ->
    reorder_codes instr i p cs st = Ok st' -> sorted_upto instr i p0 (p + length cs) out0 c0 st'.
  Proof.
    intros Hi. induction cs as [|c cs IH]; intros p st st' Hs Hp; cbn [reorder_codes].
    - intros E; injection E as <-. cbn. rewrite Nat.add_0_r. auto.
    - cbn in Hp. destruct (reorder_char instr i p c st) as [s1|] eqn:E; cbn [bind]; [|discriminate].
      eapply reorder_char_sorted in E; eauto; [|lia]. intros E2.
      apply IH in E2; auto; [|cbn; lia]. cbn [length]. replace (p + S (length cs)) with (S p + length cs) by lia. auto.
  Qed.

  Lemma reorder_loop_sorted t instr i p0 out0 c0 : i <> SBase -> forall fuel p st st',
    sorted_upto instr i p0 p out0 c0 st ->
    reorder_loop ws lower pyint fuel t instr i p st = Ok st' ->
    sorted_upto instr i p0 (length instr) out0 c0 st'.
  Proof.
    intros Hi. induction fuel as [|f IH]; intros p st st' Hs; cbn [reorder_loop];
      pose proof (skipn_length p instr) as Hsk; destruct (skipn p instr) as [|x rest] eqn:Er; try discriminate.
    - intros E; injection E as <-. cbn in Hsk. replace (length instr) with p; auto.
      destruct Hs; lia.
    - intros E; injection E as <-. cbn in Hsk. replace (length instr) with p; auto.
      destruct Hs; lia.
    - destruct (get_charcodes ws lower pyint t (x :: rest)) as [codes|] eqn:Ec; cbn [bind]; [|discriminate].
      apply codes_length in Ec; [|discriminate].
      destruct (reorder_codes instr i p codes st) as [s1|] eqn:E1; cbn [bind]; [|discriminate].
      intros E. eapply reorder_codes_sorted in E1; eauto. lia.
  Qed.

  (** C56: reordering only reorders: the layer keeps what it had settled and adds the
      characters of the rest of its input, each as often as it occurs there. *)
  Theorem C56_permutes : forall t i c c', i <> SBase ->
    l_off (lget c i) <= length (input c i) ->
    process_reorder ws lower pyint t i c = Ok c' ->
    (forall j, j <> i -> lget c' j = lget c j) /\
    exists u, Permutation (skipn (l_off (lget c i)) (input c i)) u /\
              l_out (lget c' i) = l_stable (lget c i) ++ u.
  Proof.
    intros t i c c' Hi Hoff E. unfold process_reorder in E.
    set (instr := input c i) in *.
    assert (Hoth : forall j, j <> i -> lget (reset_output c i) j = lget c j) by (intros; apply reset_other; auto).
    assert (Hg : lget (reset_output c i) i =
                 mkLayer (l_stable (lget c i)) (l_stable (lget c i)) (l_off (lget c i))) by apply lget_lset.
    rewrite Hg in E. cbn [l_off] in E. set (o := l_off (lget c i)) in *.
    destruct (scan_start ws lower pyint (length instr) t (skipn o instr)) as [n|] eqn:Es; cbn [bind] in E; [|discriminate].
    apply scan_start_le in Es. rewrite skipn_length in Es.
    set (c2 := if Nat.eqb n 0 then _ else _) in E.
    assert (Hc2 : (forall j, j <> i -> lget c2 j = lget c j) /\
                  l_out (lget c2 i) = l_stable (lget c i) ++ slice instr o (o + n)).
    { unfold c2. destruct (Nat.eqb_spec n 0) as [->|Hn].
      - split; auto. rewrite Hg. unfold slice. replace (o + 0 - o) with 0 by lia. cbn. rewrite app_nil_r. auto.
      - split.
        + intros j Hj. rewrite results_other; auto.
        + rewrite results_out by auto. rewrite Hg. reflexivity. }
    clearbody c2. destruct Hc2 as [Hc2 Hc2o].
    destruct (reorder_loop ws lower pyint (length instr) t instr i (o + n) (mkR (o + n) [] true 0 (o + n), c2))
      as [[r c3]|] eqn:El; cbn [bind] in E; [|discriminate].
    eapply (reorder_loop_sorted t instr i (o + n) (l_stable (lget c i) ++ slice instr o (o + n)) c2) in El; auto.
    - destruct El as [H1 H2 H3 H4 H5 (w & Ho & Hw)]. cbn [fst snd] in *.
      assert (Hsplit : skipn o instr = slice instr o (o + n) ++ slice instr (o + n) (length instr)).
      { rewrite <- slice_split by lia. unfold slice. symmetry. apply firstn_all2. rewrite skipn_length. lia. }
      destruct (Nat.ltb_spec (rr_start r) (length instr)) as [Hlt|Hge].
      + destruct (sort_run (slice instr (rr_start r) (length instr)) (rr_keys r)) as [out|] eqn:Eo; cbn [bind] in E; [|discriminate].
        injection E as <-.
        assert (Hsl : length (slice instr (rr_start r) (length instr)) = length instr - rr_start r) by (apply slice_length; lia).
        apply sort_run_perm in Eo; [|congruence|intros C; rewrite C in Hsl; cbn in Hsl; lia].
        split.
        * intros j Hj. rewrite lget_lset_other by auto. rewrite H5 by auto. auto.
        * exists (slice instr o (o + n) ++ (w ++ out)). rewrite lget_lset. cbn [l_out]. rewrite Ho. split.
          -- rewrite Hsplit. apply Permutation_app; auto.
             rewrite (slice_split instr (o + n) (rr_start r) (length instr)) by lia. apply Permutation_app; auto.
          -- rewrite <- !app_assoc. reflexivity.
      + injection E as <-. split.
        * intros j Hj. rewrite H5 by auto. auto.
        * exists (slice instr o (o + n) ++ w). rewrite Ho. split.
          -- rewrite Hsplit. apply Permutation_app; auto. replace (length instr) with (rr_start r) by lia. auto.
          -- rewrite app_assoc. reflexivity.
    - constructor; cbn [fst snd rr_start rr_keys rr_init length]; auto; try lia.
      + exists []. rewrite app_nil_r, Hc2o. split; auto. unfold slice. rewrite Nat.sub_diag. cbn. auto.
  Qed.

  (** C56: and it comes to an end, for every table. *)
  Lemma mapM_no_fuel {A B} (f : A -> res B) l : (forall x, f x <> Raise OutOfFuel) -> mapM f l <> Raise OutOfFuel.
  Proof.
    intros H. induction l as [|x l IH]; cbn [mapM]; [discriminate|].
    specialize (H x). destruct (f x); cbn [bind]; [|congruence].
    destruct (mapM f l); cbn [bind]; [discriminate|congruence].
  Qed.
  Lemma padlist_no_fuel v n : padlist ws lower v n <> Raise OutOfFuel.
  Proof. unfold padlist. destruct (Nat.ltb _ _); [destruct (rev _)|]; discriminate. Qed.
  Lemma as_int_no_fuel x : as_int pyint x <> Raise OutOfFuel.
  Proof. destruct x as [z|y]; cbn; [discriminate|]. destruct (pyint y); discriminate. Qed.
  Lemma zip_no_fuel n : forall os bs ts ps, zip_codes n os bs ts ps <> Raise OutOfFuel.
  Proof.
    induction n as [|n IH]; intros os bs ts ps; cbn [zip_codes]; [discriminate|].
    destruct os, bs, ts, ps; try discriminate.
    specialize (IH os bs ts ps). destruct (zip_codes n os bs ts ps); cbn [bind]; [discriminate|congruence].
  Qed.
  Lemma codes_no_fuel t rest : get_charcodes ws lower pyint t rest <> Raise OutOfFuel.
  Proof.
    unfold get_charcodes. pose proof (match_no_fuel t rest false false) as Hm.
    destruct (rules_match t rest false false) as [[[r|] n]|]; cbn [bind]; [|discriminate|congruence].
    pose proof (padlist_no_fuel (attr_or r (lit "order") (lit "0")) n) as H1.
    destruct (padlist _ _ _ n) as [l1|]; cbn [bind]; [|congruence].
    pose proof (mapM_no_fuel (as_int pyint) l1 as_int_no_fuel) as H2.
    destruct (mapM _ l1) as [o1|]; cbn [bind]; [|congruence].
    pose proof (padlist_no_fuel (attr_or r (lit "tertiary_base") (lit "false")) n) as H3.
    destruct (padlist _ _ _ n) as [l2|]; cbn [bind]; [|congruence].
    pose proof (padlist_no_fuel (attr_or r (lit "tertiary") (lit "0")) n) as H4.
    destruct (padlist _ _ _ n) as [l3|]; cbn [bind]; [|congruence].
    pose proof (mapM_no_fuel (as_int pyint) l3 as_int_no_fuel) as H5.
    destruct (mapM _ l3) as [o2|]; cbn [bind]; [|congruence].
    pose proof (padlist_no_fuel (attr_or r (lit "prebase") (lit "false")) n) as H6.
    destruct (padlist _ _ _ n) as [l4|]; cbn [bind]; [|congruence].
    apply zip_no_fuel.
  Qed.
  Lemma sort_no_fuel s k : sort_run s k <> Raise OutOfFuel.
  Proof. unfold sort_run. destruct (existsb _ k); [discriminate|]. destruct s; discriminate. Qed.

  Lemma reorder_codes_no_fuel instr i : forall cs p st, reorder_codes instr i p cs st <> Raise OutOfFuel.
  Proof.
    induction cs as [|c cs IH]; intros p st; cbn [reorder_codes]; [discriminate|].
    assert (H : reorder_char instr i p c st <> Raise OutOfFuel).
    { destruct st as [r ctx]. unfold reorder_char.
      destruct (if (negb (Z.eqb (cc_tertiary c) 0) && Nat.ltb (rr_start r) p)%bool then _ else _)
        as [[key prim] base]. cbn zeta.
      match goal with |- (if ?b then _ else _) <> _ => destruct b end; [|discriminate].
      pose proof (sort_no_fuel (slice instr (rr_start r) p) (rr_keys r)) as Hs.
      destruct (sort_run _ _); cbn [bind]; [discriminate|congruence]. }
    destruct (reorder_char instr i p c st); cbn [bind]; [apply IH|congruence].
  Qed.

  Theorem C56_terminates : forall t i c, process_reorder ws lower pyint t i c <> Raise OutOfFuel.
  Proof.
    intros t i c. unfold process_reorder.
    assert (H1 : forall fuel rest, length rest <= fuel -> scan_start ws lower pyint fuel t rest <> Raise OutOfFuel).
    { induction fuel as [|f IH]; intros [|x rest] Hl; cbn [scan_start length] in *; try discriminate; try lia.
      pose proof (codes_no_fuel t (x :: rest)) as Hc.
      destruct (get_charcodes ws lower pyint t (x :: rest)) as [codes|] eqn:Ec; cbn [bind]; [|congruence].
      apply codes_length in Ec; [|discriminate].
      pose proof (scan_codes_all codes) as Ha. destruct (scan_codes codes) as [k b]. cbn [fst snd] in Ha.
      destruct b; [discriminate|]. rewrite (Ha eq_refl).
      assert (Hx : scan_start ws lower pyint f t (skipn (length codes) (x :: rest)) <> Raise OutOfFuel).
      { apply IH. rewrite skipn_length. cbn [length]. lia. }
      destruct (scan_start ws lower pyint f t _); cbn [bind]; [discriminate|congruence]. }
    set (instr := input c i).
    assert (Hl1 : length (skipn (l_off (lget (reset_output c i) i)) instr) <= length instr) by (rewrite skipn_length; lia).
    apply H1 in Hl1. destruct (scan_start ws lower pyint (length instr) t _) as [n|]; cbn [bind]; [|congruence].
    set (c2 := if Nat.eqb n 0 then _ else _).
    set (p := l_off (lget (reset_output c i) i) + n).
    assert (H2 : forall fuel p st, length instr - p <= fuel ->
              reorder_loop ws lower pyint fuel t instr i p st <> Raise OutOfFuel).
    { induction fuel as [|f IH]; intros q st Hq; cbn [reorder_loop];
        pose proof (skipn_length q instr) as Hsk; destruct (skipn q instr) as [|x rest] eqn:Er;
        cbn [length] in Hsk; try discriminate; try lia.
      pose proof (codes_no_fuel t (x :: rest)) as Hc.
      destruct (get_charcodes ws lower pyint t (x :: rest)) as [codes|] eqn:Ec; cbn [bind]; [|congruence].
      apply codes_length in Ec; [|discriminate].
      pose proof (reorder_codes_no_fuel instr i codes q st) as Hr.
      destruct (reorder_codes instr i q codes st); cbn [bind]; [|congruence]. apply IH. lia. }
    specialize (H2 (length instr) p (mkR p [] true 0 p, c2) ltac:(lia)).
    destruct (reorder_loop ws lower pyint (length instr) t instr i p (mkR p [] true 0 p, c2)) as [[r c3]|]; cbn [bind]; [|congruence].
    destruct (Nat.ltb _ _); [|discriminate].
    pose proof (sort_no_fuel (slice instr (rr_start r) (length instr)) (rr_keys r)) as Hs.
    destruct (sort_run _ _); cbn [bind]; [discriminate|congruence].
  Qed.
End Reordering.

(** A table in which v is written before and m after its base: "kmv" is reordered. *)
Definition ord (o : pystr) : rule := Rule true [] None [] [(lit "order", o)].
Definition ex_reorder : rule := Rule false [(lit "m", ord (lit "20")); (lit "v", ord (lit "10"))] None [] [].
Definition ex_int (s : pystr) : option Z :=
  if forallb is_digit s then Some (fold_left (fun a c => 10 * a + Z.of_N (c - 48)) s 0)%Z else None.
Example ex_reordered :
  exists c', process_reorder (fun c => N.eqb c 32) ascii_lower ex_int ex_reorder SReorder
    (mkContext empty_layer (mkLayer [] (lit "kmvbvm") 0) empty_layer empty_layer false) = Ok c' /\
    l_out (c_reorder c') = lit "kvmbvm".
Proof. eexists. split; [vm_compute; reflexivity|reflexivity]. Qed.
(** a run without a base cannot be sorted: here the text begins with a prebase *)
Example ex_reorder_no_base :
  process_reorder (fun c => N.eqb c 32) ascii_lower ex_int
    (Rule false [(lit "e", Rule true [] None [] [(lit "order", lit "5"); (lit "prebase", lit "true")])] None [] [])
    SReorder (mkContext empty_layer (mkLayer [] (lit "e") 0) empty_layer empty_layer false) = Raise TypeError.
Proof. reflexivity. Qed.
