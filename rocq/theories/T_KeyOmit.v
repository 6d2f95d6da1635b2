(** Property C44 with the settings transformFailure=omit and fallback=omit. *)
From Verif Require Import Py PyFacts M_UnicodeSets M_Flatten M_Keyboard T_Keyboard T_Keyboard2.
Local Open Scope list_scope.
Local Open Scope nat_scope.

(** * Specification *)
(** a text that starts with [c] and has no rule is waited for: always with fallback=omit, with
    transformFailure=omit if some rule starts with [c] *)
Definition holds (omit fallback : bool) (t : rule) (c : N) : Prop :=
  fallback = true \/ (omit = true /\ exists r, dget streq (r_kids t) [c] = Some r).
(** [rewrites] of C44 with these settings: nothing is added from such a text on *)
Inductive rewrites_with (hide omit fallback : bool) (t : rule) : pystr -> pystr -> Prop :=
| ro_nil : rewrites_with hide omit fallback t [] []
| ro_wait s : hide = true -> s <> [] -> waiting t s -> rewrites_with hide omit fallback t s []
| ro_rule s n r u : (hide = true -> ~ waiting t s) -> longest t s n r -> is_error r = false ->
    rewrites_with hide omit fallback t (skipn n s) u -> rewrites_with hide omit fallback t s (attr_or r (lit "to") [] ++ u)
| ro_copy c s u : (hide = true -> ~ waiting t (c :: s)) -> no_rule t (c :: s) -> ~ holds omit fallback t c ->
    rewrites_with hide omit fallback t s u -> rewrites_with hide omit fallback t (c :: s) (c :: u)
| ro_hold c s : (hide = true -> ~ waiting t (c :: s)) -> no_rule t (c :: s) -> holds omit fallback t c ->
    rewrites_with hide omit fallback t (c :: s) [].
Inductive error_with (hide omit fallback : bool) (t : rule) : pystr -> Prop :=
| eo_here s n r : (hide = true -> ~ waiting t s) -> longest t s n r -> is_error r = true -> error_with hide omit fallback t s
| eo_rule s n r : (hide = true -> ~ waiting t s) -> longest t s n r -> is_error r = false ->
    error_with hide omit fallback t (skipn n s) -> error_with hide omit fallback t s
| eo_copy c s : (hide = true -> ~ waiting t (c :: s)) -> no_rule t (c :: s) -> ~ holds omit fallback t c ->
    error_with hide omit fallback t s -> error_with hide omit fallback t (c :: s).

(** * Proofs *)
Lemma loop_some p s : forall rest curr ind last lastind o n,
  match_loop p s curr rest ind (Some last) lastind = Ok (o, n) -> 0 < ind + length rest -> o = None -> 0 < n.
Proof.
  induction rest as [|c rest IH]; intros curr ind last lastind o n; cbn [match_loop length].
  - destruct (p && _)%bool; intros E L Ho; injection E as E1 E2; [lia|subst; discriminate].
  - destruct (if dmem streq (r_kids curr) [c] then Some curr else _) as [cu|].
    + destruct (dget streq (r_kids cu) [c]) as [nx|]; [|discriminate]. cbn zeta.
      destruct (r_rule nx); [destruct (context_match _ _ _ _)|]; intros E L Ho; eapply IH; eauto; lia.
    + intros E L Ho. injection E as E1 E2. subst. discriminate.
Qed.
Lemma loop_some_any p s : forall rest curr ind last lastind L,
  0 < ind + length rest ->
  match_loop p s curr rest ind (Some last) lastind =
  do (o, n) <- match_loop p s curr rest ind (Some last) lastind;
  Ok (o, match o with None => if Nat.eqb n 0 then L else n | Some _ => n end).
Proof.
  intros rest curr ind last lastind L H. destruct (match_loop _ _ _ _ _ _ _) as [[o n]|e] eqn:E; [|reflexivity]. cbn [bind].
  destruct o; [reflexivity|]. pose proof (loop_some _ _ _ _ _ _ _ _ _ E H eq_refl). destruct n; [lia|reflexivity].
Qed.
Lemma loop_start p s L : forall rest curr ind,
  0 < ind + length rest ->
  match_loop p s curr rest ind None L =
  do (o, n) <- match_loop p s curr rest ind None 0;
  Ok (o, match o with None => if Nat.eqb n 0 then L else n | Some _ => n end).
Proof.
  induction rest as [|c rest IH]; intros curr ind H; cbn [match_loop length] in *.
  - destruct (p && _)%bool; cbn [bind]; [destruct ind; [lia|reflexivity]|reflexivity].
  - destruct (if dmem streq (r_kids curr) [c] then Some curr else _) as [cu|]; [|reflexivity].
    destruct (dget streq (r_kids cu) [c]) as [nx|]; [|reflexivity]. cbn zeta.
    destruct (r_rule nx); [destruct (context_match _ _ _ _)|]; try (apply IH; lia). apply loop_some_any. lia.
Qed.
Lemma match_omit t c s p omit o n :
  rules_match t (c :: s) p omit = Ok (o, n) ->
  exists n0, rules_match t (c :: s) p false = Ok (o, n0) /\
  ((n0 = n /\ ~ (o = None /\ n0 = 0)) \/
   (o = None /\ n0 = 0 /\ n = if (omit && dmem streq (r_kids t) [c])%bool then 1 else 0)).
Proof.
  intro E. destruct omit.
  - cbn [rules_match] in *. rewrite loop_start in E by (cbn; lia).
    destruct (match_loop p (c :: s) t (c :: s) 0 None 0) as [[o' n']|e]; [|discriminate]. cbn [bind] in E. injection E as -> <-.
    exists n'. split; [reflexivity|]. destruct o as [r|]; [left; split; [reflexivity|]; intros [? _]; discriminate|].
    destruct n' as [|n']; [right; auto|left; split; [reflexivity|intros [_ ?]; discriminate]].
  - exists n. split; [exact E|]. destruct o as [r|]; [left; split; [reflexivity|]; intros [? _]; discriminate|].
    destruct n; [right; auto|left; split; [reflexivity|intros [_ ?]; discriminate]].
Qed.
Lemma holds_dec omit fallback t c : holds omit fallback t c <-> (fallback || omit && dmem streq (r_kids t) [c])%bool = true.
Proof.
  unfold holds, dmem. destruct fallback; cbn [orb]; [tauto|]. destruct omit; cbn [andb].
  - destruct (dget streq (r_kids t) [c]) as [r|]; split; try tauto; try discriminate.
    + intros _. right. split; [reflexivity|]. now exists r.
    + intros [?|[_ [r ?]]]; discriminate.
  - split; [intros [?|[? _]]; discriminate|discriminate].
Qed.

Lemma simple_loop_with t p omit fallback i : i <> SBase -> forall fuel rest c b c',
  simple_loop fuel t p omit fallback i rest c = Ok (b, c') ->
  (forall j, j <> i -> lget c' j = lget c j) /\
  if b then exists u, rewrites_with p omit fallback t rest u /\ l_out (lget c' i) = l_out (lget c i) ++ u
  else error_with p omit fallback t rest.
Proof.
  intros Hi. induction fuel as [|f IH]; intros rest c b c' E.
  - destruct rest as [|x rest]; [|discriminate]. injection E as <- <-.
    split; auto. exists []. rewrite app_nil_r. split; auto. constructor.
  - destruct rest as [|x rest].
    + injection E as <- <-. split; auto. exists []. rewrite app_nil_r. split; auto. constructor.
    + cbn [simple_loop] in E.
      destruct (rules_match t (x :: rest) p omit) as [[o n]|] eqn:Eo; cbn [bind] in E; [|discriminate].
      apply match_omit in Eo as (n0 & Em & Hn0).
      apply match_hide in Em as [(Hp & Hw & -> & ->)|[Hw Hm]].
      * assert (n = length (x :: rest)) as -> by (destruct Hn0 as [[H _]|(_ & H & _)]; [congruence|cbn in H; discriminate]).
        cbn [length Nat.eqb andb] in E. injection E as <- <-. split; auto.
        exists []. rewrite app_nil_r. split; auto. apply ro_wait; auto. discriminate.
      * destruct o as [r|].
        { assert (n0 = n) as -> by (destruct Hn0 as [[H _]|(H & _)]; [exact H|discriminate]).
          destruct (is_error r) eqn:Er.
          - injection E as <- <-. split; auto. eapply eo_here; eauto.
          - apply IH in E as [K1 K2]. split.
            + intros j Hj. rewrite K1 by auto. apply results_other; auto.
            + destruct b.
              * destruct K2 as (u & Hu & Ho). exists (attr_or r (lit "to") [] ++ u). split.
                { eapply ro_rule; eauto. }
                { rewrite Ho, results_out, app_assoc by auto. reflexivity. }
              * eapply eo_rule; eauto. }
        { destruct Hm as [-> Hn]. destruct Hn0 as [[_ H]|(_ & _ & ->)]; [exfalso; apply H; auto|].
          pose proof (holds_dec omit fallback t x) as HD.
          destruct (omit && dmem streq (r_kids t) [x])%bool eqn:Eh, fallback; cbn [orb Nat.eqb negb andb] in *.
          4: { apply IH in E as [K1 K2]. split.
               - intros j Hj. rewrite K1 by auto. apply results_other; auto.
               - assert (~ holds omit false t x) as Nh by (rewrite HD; discriminate). destruct b.
                 + destruct K2 as (u & Hu & Ho). exists (x :: u). split.
                   { apply ro_copy; auto. }
                   { rewrite Ho, results_out, <- app_assoc by auto. reflexivity. }
                 + apply eo_copy; auto. }
          all: injection E as <- <-; split; auto; exists []; rewrite app_nil_r; split; auto; apply ro_hold; tauto. }
Qed.

(** * Theorems *)
(** For all settings: the layer keeps what was settled, leaves the other layers alone and adds what is specified above. *)
Theorem C44_settings : forall t hide omit fallback i c b c', i <> SBase ->
  process_simple t hide omit fallback i c = Ok (b, c') ->
  (forall j, j <> i -> lget c' j = lget c j) /\
  (if b then exists u, rewrites_with hide omit fallback t (skipn (l_off (lget c i)) (input c i)) u /\
                       l_out (lget c' i) = l_stable (lget c i) ++ u
   else error_with hide omit fallback t (skipn (l_off (lget c i)) (input c i))).
Proof.
  intros t hide omit fallback i c b c' Hi E. unfold process_simple in E.
  assert (Hoth : forall j, j <> i -> lget (reset_output c i) j = lget c j) by (intros; apply reset_other; auto).
  assert (Hin : input (reset_output c i) i = input c i).
  { unfold input. rewrite Hoth; auto. apply not_eq_sym, before_neq; auto. }
  assert (Hg : lget (reset_output c i) i =
               mkLayer (l_stable (lget c i)) (l_stable (lget c i)) (l_off (lget c i))) by apply lget_lset.
  rewrite Hin, Hg in E. cbn [l_off] in E.
  apply simple_loop_with in E as [K1 K2]; auto. rewrite Hg in K2. cbn [l_out] in K2.
  split; auto. intros j Hj. rewrite K1 by auto. auto.
Qed.

(** Nothing is omitted: once a text that starts with [c] is held and cannot go on, nothing that follows it is seen. *)
Theorem C44_omit_refuted : forall t hide omit fallback c s u,
  holds omit fallback t c -> (forall s', no_rule t (c :: s')) ->
  rewrites_with hide omit fallback t (c :: s) u -> u = [].
Proof.
  intros t hide omit fallback c s u H N R. inversion R as [|? ? ? ?|? n r u' ? Hl ? ?|? ? ? ? ? Hn ?|]; subst; try reflexivity.
  - exfalso. destruct Hl as [Hl _]. exact (N s n r Hl).
  - contradiction.
Qed.

Lemma leads_first t q node : leads t q node -> match q with [] => True | c :: _ => exists r, step t c r end.
Proof.
  induction 1 as [|p c r r' H IH Hs]; [exact I|]. destruct p as [|a p]; [|exact IH].
  exists r'. inversion H as [|p' ? ? ? ? ? E]; subst; [exact Hs|]. destruct p'; discriminate.
Qed.
(** A rule makes "ab" an x. With transformFailure=omit the "a" of "qazab" is not left out: nothing is seen after the
    "q"; with fallback=omit not even that. *)
Definition ex_omit : rule :=
  Rule false [(lit "a", Rule false [(lit "b", Rule true [] None [] [(lit "to", lit "x")])] None [] [])] None [] [].
Definition ex_run (hide omit fallback : bool) : option pystr :=
  match process_simple ex_omit hide omit fallback SSimple
          (mkContext (mkLayer [] (lit "qazab") 0) empty_layer empty_layer empty_layer false) with
  | Ok (true, c) => Some (l_out (c_simple c))
  | _ => None
  end.
Example ex_settings : ex_run false false false = Some (lit "qazx") /\ ex_run false true false = Some (lit "q") /\
  ex_run false false true = Some [] /\ holds true false ex_omit 97%N /\ ~ holds true false ex_omit 113%N.
Proof.
  repeat split; try (vm_compute; reflexivity).
  - right. split; [reflexivity|]. eexists. vm_compute. reflexivity.
  - rewrite holds_dec. vm_compute. discriminate.
Qed.
(** "z" starts no rule, so with fallback=omit nothing that follows it is seen. *)
Example ex_stuck : holds false true ex_omit 122%N /\ forall s, no_rule ex_omit (122%N :: s).
Proof.
  split; [now left|]. intros s n r ([Hn _] & node & Hl & _). destruct n as [|n]; [lia|]. cbn [firstn] in Hl.
  apply leads_first in Hl as [r' Hs]. inversion Hs; discriminate.
Qed.
