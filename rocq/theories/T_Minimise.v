(** C76: minimising a tailoring. *)
From Coq Require Import String Lia Permutation Sorted ZArith QArith Qcanon.
From Verif Require Import Py PyFacts M_UnicodeSets M_Collation M_Tailor M_TailorQ M_Difflib T_Difflib M_Minimise.
Local Open Scope nat_scope.
Local Open Scope list_scope.

(** ** What the statements are about *)
(** [x] is [k], or what [k] is defined relative to, and so on *)
Inductive upto (es : elts) : pystr -> pystr -> Prop :=
| up_self k : upto es k k
| up_base k e x : dget streq es k = Some e -> upto es (t_base e) x -> upto es k x.
(** the letters of the tailoring: single characters not placed before something *)
Definition letter (es : elts) (k : pystr) : Prop := exists e, dget streq es k = Some e /\ t_before e = 0%N /\ length k <= 1.
(** ... and the characters outside it that their chains start from *)
Definition start (es : elts) (k : pystr) : Prop := dget streq es k = None /\ exists x, letter es x /\ upto es x k.
Definition is_item (es : elts) (k : pystr) : Prop := letter es k \/ start es k.
(** defined relative to [r] through steps of levels 2 and 3, but not of a lower number than [l] *)
Inductive below (es : elts) (l : nat) (r : pystr) : pystr -> Prop :=
| below_self : below es l r r
| below_step p k e : below es l r p -> dget streq es k = Some e -> t_base e = p ->
    (exists x, letter es x /\ upto es x k) -> 2 <= t_level e <= 3 -> l <= t_level e -> below es l r k.
(** a string whose sign can be told from the marks after it *)
Definition plain (k : pystr) : Prop := k <> [] /\ forall s, k = s ++ [62%N] -> s = [].

(** [leb] orders the strings that satisfy [P], with ties *)
Definition orders (P : pystr -> Prop) (leb : pystr -> pystr -> bool) : Prop :=
  (forall x y, P x -> P y -> leb x y = true \/ leb y x = true) /\
  (forall x y z, P x -> P y -> P z -> leb x y = true -> leb y z = true -> leb x z = true).
Definition levels_ok (es : elts) : Prop := forall k e, dget streq es k = Some e -> 1 <= t_level e.

(** ** Heads *)
Section Heads.
  Variable es : elts.
  (** the number of steps until something known, or something outside, given the heads [hs] *)
  Inductive term (hs : list (pystr * pystr)) : nat -> pystr -> Prop :=
  | term_known k h : dget streq hs k = Some h -> term hs 0 k
  | term_out k e : dget streq hs k = None -> dget streq es k = Some e -> dget streq es (t_base e) = None -> term hs 0 k
  | term_step n k e b : dget streq hs k = None -> dget streq es k = Some e -> dget streq es (t_base e) = Some b -> term hs n (t_base e) -> term hs (S n) k.
  Lemma term_fun hs n : forall m k, term hs n k -> term hs m k -> n = m.
  Proof.
    induction n as [|n IH]; intros m k T1 T2; inversion T1; subst; inversion T2; subst; try congruence.
    replace e0 with e in * by congruence. f_equal. eapply IH; eassumption.
  Qed.
  Definition heads_ok (st : hstate) : Prop :=
    (forall k h, dget streq (h_heads st) k = Some h -> exists e, dget streq es k = Some e /\ (dget streq es h = None /\ upto es k h) /\
       ((dget streq es (t_base e) = None /\ h = t_base e) \/
        (dget streq es (t_base e) <> None /\ dget streq (h_heads st) (t_base e) = Some h /\ exists i, kids_index (t_level e) = Ok i /\ In (t_base e, i, k) (h_kids st)))) /\
    (forall p i c, In (p, i, c) (h_kids st) -> exists e, dget streq es c = Some e /\ t_base e = p /\ kids_index (t_level e) = Ok i /\ dget streq (h_heads st) c <> None /\ dget streq (h_heads st) p <> None /\ p <> c) /\
    ForallOrdPairs (fun early late => fst (fst early) <> snd late) (h_kids st).
  Lemma FOP_app {A} (R : A -> A -> Prop) l x : ForallOrdPairs R l -> (forall y, In y l -> R y x) -> ForallOrdPairs R (l ++ [x]).
  Proof.
    induction 1 as [|y l F H IH]; intros G; cbn.
    - repeat constructor.
    - constructor; [|apply IH; intros z I; apply G; now right]. apply Forall_app. split; [exact F|]. repeat constructor. apply G. now left.
  Qed.
  Lemma head_ok fuel : forall st k e st' h, head fuel es st k e = Ok (st', h) -> dget streq es k = Some e -> heads_ok st ->
    heads_ok st' /\ dget streq (h_heads st') k = Some h /\
    (forall x v, dget streq (h_heads st) x = Some v -> dget streq (h_heads st') x = Some v) /\
    (forall x, dget streq (h_heads st') x <> None -> dget streq (h_heads st) x <> None \/ upto es k x) /\
    exists n, term (h_heads st) n k /\ forall x, dget streq (h_heads st') x <> None -> dget streq (h_heads st) x = None -> exists m, m <= n /\ term (h_heads st) m x.
  Proof.
    induction fuel as [|f IH]; intros st k e st' h H E I; [discriminate|]. cbn [head] in H.
    destruct (dget streq (h_heads st) k) as [h0|] eqn:Hk.
    - injection H as <- <-. split; [exact I|]. split; [exact Hk|]. split; [auto|]. split; [auto|]. exists 0. split; [eapply term_known; eassumption|]. intros x X N. congruence.
    - destruct (dget streq es (t_base e)) as [b|] eqn:Hb.
      + destruct (head f es st (t_base e) b) as [[st1 h1]|] eqn:R; cbn [bind fst snd] in H; [|discriminate].
        destruct (kids_index (t_level e)) as [i|] eqn:Ki; cbn [bind] in H; [|discriminate]. injection H as <- <-.
        destruct (IH _ _ _ _ _ R Hb I) as ((A1 & A2 & A3) & B & C & D & n & T & N). cbn [h_heads h_kids].
        assert (Nk : dget streq (h_heads st1) k = None).
        { destruct (dget streq (h_heads st1) k) eqn:X; [|reflexivity]. exfalso. destruct (N k ltac:(congruence) Hk) as (m & Lm & Tm).
          assert (Tk : term (h_heads st) (S n) k) by (eapply term_step; eassumption). pose proof (term_fun _ _ _ _ Tk Tm). lia. }
        assert (G : forall x, dget streq (dset streq (h_heads st1) k h1) x = if streq x k then Some h1 else dget streq (h_heads st1) x) by (intros x; apply (dget_dset streq streq_spec)).
        assert (G' : forall x, dget streq (h_heads st1) x <> None -> dget streq (dset streq (h_heads st1) k h1) x = dget streq (h_heads st1) x).
        { intros x X. rewrite G. destruct (streq_spec x k) as [->|]; [congruence|reflexivity]. }
        refine (conj (conj _ (conj _ _)) (conj _ (conj _ (conj _ _)))).
        * intros x v X. rewrite G in X. destruct (streq_spec x k) as [->|].
          -- injection X as <-. exists e. split; [exact E|]. split; [destruct (A1 _ _ B) as (? & ? & [? ?] & ?); split; [assumption|eapply up_base; eassumption]|]. right. split; [congruence|]. rewrite G' by congruence. split; [exact B|]. exists i. split; [exact Ki|]. apply in_or_app. right. now left.
          -- destruct (A1 _ _ X) as (e' & E1 & E2 & E3). exists e'. split; [exact E1|]. split; [exact E2|]. destruct E3 as [E3|(E3 & E4 & i' & E5 & E6)]; [now left|right].
             split; [exact E3|]. rewrite G' by congruence. split; [exact E4|]. exists i'. split; [exact E5|]. apply in_or_app. now left.
        * intros p i' c X. apply in_app_or in X. destruct X as [X|[X|[]]].
          -- destruct (A2 _ _ _ X) as (e' & E1 & E2 & E3 & E4 & E5 & E6). exists e'. repeat split; try assumption; rewrite G' by assumption; assumption.
          -- injection X as <- <- <-. exists e. repeat split; try assumption; [rewrite G, streq_refl; discriminate|rewrite G' by congruence; congruence|congruence].
        * apply FOP_app; [exact A3|]. intros [[p i'] c] X Y. cbn in Y. subst p. destruct (A2 _ _ _ X) as (e' & _ & _ & _ & _ & E5 & _). congruence.
        * rewrite G, streq_refl. reflexivity.
        * intros x v X. rewrite G' by (rewrite (C _ _ X); discriminate). now apply C.
        * intros x X. rewrite G in X. destruct (streq_spec x k) as [Ex|]; [right; rewrite Ex; constructor|]. destruct (D x X) as [Y|Y]; [now left|right]. eapply up_base; eassumption.
        * exists (S n). split; [eapply term_step; eassumption|]. intros x X Y. rewrite G in X. destruct (streq_spec x k) as [Ex|].
          -- exists (S n). split; [lia|]. rewrite Ex. eapply term_step; eassumption.
          -- destruct (N x X Y) as (m & Lm & Tm). exists m. split; [lia|exact Tm].
      + injection H as <- <-. cbn [h_heads h_kids]. destruct I as (A1 & A2 & A3).
        assert (G : forall x, dget streq (dset streq (h_heads st) k (t_base e)) x = if streq x k then Some (t_base e) else dget streq (h_heads st) x) by (intros x; apply (dget_dset streq streq_spec)).
        assert (G' : forall x, dget streq (h_heads st) x <> None -> dget streq (dset streq (h_heads st) k (t_base e)) x = dget streq (h_heads st) x).
        { intros x X. rewrite G. destruct (streq_spec x k) as [->|]; [congruence|reflexivity]. }
        refine (conj (conj _ (conj _ _)) (conj _ (conj _ (conj _ _)))).
        * intros x v X. rewrite G in X. destruct (streq_spec x k) as [->|].
          -- injection X as <-. exists e. split; [exact E|]. split; [split; [exact Hb|eapply up_base; [exact E|constructor]]|]. left. now split.
          -- destruct (A1 _ _ X) as (e' & E1 & E2 & E3). exists e'. split; [exact E1|]. split; [exact E2|]. destruct E3 as [E3|(E3 & E4 & i' & E5 & E6)]; [now left|right].
             split; [exact E3|]. rewrite G' by congruence. split; [exact E4|]. exists i'. now split.
        * intros p i' c X. destruct (A2 _ _ _ X) as (e' & E1 & E2 & E3 & E4 & E5 & E6). exists e'. repeat split; try assumption; rewrite G' by assumption; assumption.
        * exact A3.
        * rewrite G, streq_refl. reflexivity.
        * intros x v X. rewrite G' by congruence. exact X.
        * intros x X. rewrite G in X. destruct (streq_spec x k) as [Ex|]; [right; rewrite Ex; constructor|now left].
        * exists 0. split; [eapply term_out; eassumption|]. intros x X Y. rewrite G in X. destruct (streq_spec x k) as [Ex|]; [|congruence]. exists 0. split; [lia|]. rewrite Ex. eapply term_out; eassumption.
  Qed.
  Lemma heads_upto st : heads_ok st -> forall x y, upto es x y -> dget streq (h_heads st) x <> None -> dget streq es y <> None -> dget streq (h_heads st) y <> None.
  Proof.
    intros (A & _ & _) x y U. induction U as [|k e x E U IH]; intros H Y; [exact H|].
    destruct (dget streq (h_heads st) k) as [h|] eqn:Hk; [|congruence]. destruct (A _ _ Hk) as (e' & E1 & _ & E3). replace e' with e in * by congruence.
    destruct E3 as [[E3 _]|(E3 & E4 & _)]; [|apply IH; [congruence|exact Y]].
    inversion U; subst; [contradiction|]. congruence.
  Qed.
End Heads.

(** ** Chains *)
Definition some_item (p : pystr * tel) : item := (fst p, Some (snd p)).
Definition nonspecial (p : pystr * tel) : bool := negb (special (fst p) (snd p)).
Lemma special_iff k e : special k e = false <-> t_before e = 0%N /\ length k <= 1.
Proof.
  unfold special. destruct (N.eqb_spec (t_before e) 0), (Nat.ltb_spec 1 (length k)); cbn; split; try lia; try easy; intros [? ?]; try lia; congruence.
Qed.
Section Chains.
  Variable es : elts.
  Definition chains_ok (done : elts) (st : hstate) (out : list item) (chains : list (pystr * list item)) : Prop :=
    heads_ok es st /\ out = map some_item (filter (fun p => special (fst p) (snd p)) done) /\
    Permutation (flat_map snd chains) (map some_item (filter nonspecial done)) /\
    NoDup (dkeys chains) /\
    (forall h l, In (h, l) chains -> exists k e, In (k, Some e) l /\ dget streq (h_heads st) k = Some h) /\
    (forall k e, In (k, e) done -> nonspecial (k, e) = true -> exists h, dget streq (h_heads st) k = Some h /\ In h (dkeys chains)) /\
    (forall x, dget streq (h_heads st) x <> None <-> dget streq es x <> None /\ exists k e, In (k, e) done /\ nonspecial (k, e) = true /\ upto es k x).
  Lemma fold_raise l e : fold_left (chain_step es) l (Raise e) = Raise e.
  Proof. induction l as [|x l IH]; [reflexivity|exact IH]. Qed.
  Lemma flat_dset (chains : list (pystr * list item)) h x : NoDup (dkeys chains) ->
    Permutation (flat_map snd (dset streq chains h ((match dget streq chains h with Some l => l | None => [] end) ++ [x]))) (flat_map snd chains ++ [x]).
  Proof.
    induction chains as [|[h' l] c IH]; intros N; [cbn; reflexivity|]. cbn [dget dset]. destruct (streq h h') eqn:E.
    - cbn [flat_map snd]. rewrite <- !app_assoc. apply Permutation_app_head. apply Permutation_app_comm.
    - cbn [flat_map snd]. rewrite <- app_assoc. apply Permutation_app_head. apply IH. inversion N; assumption.
  Qed.
  Lemma chains_step : forall l done st out chains st' out' chains', (forall k e, In (k, e) l -> dget streq es k = Some e) ->
    chains_ok done st out chains -> fold_left (chain_step es) l (Ok (st, out, chains)) = Ok (st', out', chains') -> chains_ok (done ++ l) st' out' chains'.
  Proof.
    induction l as [|[k e] l IH]; intros done st out chains st' out' chains' W I H.
    - injection H as <- <- <-. now rewrite app_nil_r.
    - replace (done ++ (k, e) :: l) with ((done ++ [(k, e)]) ++ l) by now rewrite <- app_assoc.
      assert (Ek : dget streq es k = Some e) by (apply W; now left).
      cbn [fold_left] in H. unfold chain_step at 2 in H. cbn [bind] in H. destruct I as (I1 & I2 & I3 & I4 & I5 & I6 & I7). destruct (special k e) eqn:Sp.
      + eapply IH; [|clear H|exact H]; [intros; apply W; now right|].
        assert (Ns : nonspecial (k, e) = false) by (unfold nonspecial; cbn; now rewrite Sp).
        refine (conj I1 (conj _ (conj _ (conj I4 (conj I5 (conj _ _)))))).
        * rewrite filter_app, map_app, <- I2. cbn [filter fst snd]. now rewrite Sp.
        * rewrite filter_app. cbn [filter]. rewrite Ns, app_nil_r. exact I3.
        * intros k' e' X Y. apply in_app_or in X. destruct X as [X|[X|[]]]; [now apply (I6 k' e')|]. injection X as <- <-. congruence.
        * intros x. rewrite I7. split; intros (X & k' & e' & Y & Z & U); (split; [exact X|]); exists k', e'; (split; [|now split]); [apply in_or_app; now left|].
          apply in_app_or in Y. destruct Y as [Y|[Y|[]]]; [exact Y|]. injection Y as <- <-. congruence.
      + destruct (head (S (length es)) es st k e) as [[st1 h]|] eqn:Hd; cbn [bind] in H; [|rewrite fold_raise in H; discriminate].
        assert (Ns : nonspecial (k, e) = true) by (unfold nonspecial; cbn; now rewrite Sp).
        destruct (head_ok es _ _ _ _ _ _ Hd Ek I1) as (H1 & H2 & H3 & H4 & _).
        eapply IH; [|clear H|exact H]; [intros; apply W; now right|].
        assert (Kc : forall x, In x (dkeys (dset streq chains h ((match dget streq chains h with Some l => l | None => [] end) ++ [(k, Some e)]))) <-> x = h \/ In x (dkeys chains)) by (intros x; rewrite (in_dkeys_dset streq streq_spec); tauto).
        refine (conj H1 (conj _ (conj _ (conj _ (conj _ (conj _ _)))))).
        * rewrite filter_app. cbn [filter fst snd]. now rewrite Sp, app_nil_r.
        * rewrite flat_dset by exact I4. rewrite filter_app, map_app. cbn [filter]. rewrite Ns. apply Permutation_app; [exact I3|reflexivity].
        * now apply (dset_NoDup streq streq_spec).
        * intros h' l' X. apply (dget_NoDup_In streq streq_spec) in X; [|now apply (dset_NoDup streq streq_spec)]. rewrite (dget_dset streq streq_spec) in X. destruct (streq_spec h' h) as [->|].
          -- injection X as <-. exists k, e. split; [apply in_or_app; right; now left|exact H2].
          -- apply (dget_In streq streq_spec) in X. destruct (I5 _ _ X) as (k' & e' & Y & Z). exists k', e'. split; [exact Y|]. now apply H3.
        * intros k' e' X Y. apply in_app_or in X. destruct X as [X|[X|[]]].
          -- destruct (I6 k' e' X Y) as (h' & Z & V). exists h'. split; [now apply H3|]. apply Kc. now right.
          -- injection X as <- <-. exists h. split; [exact H2|]. apply Kc. now left.
        * intros x. split.
          -- intros X. split.
             ++ destruct H1 as (A & _). destruct (dget streq (h_heads st1) x) as [v|] eqn:V; [|congruence]. destruct (A _ _ V) as (? & Y & _). congruence.
             ++ destruct (H4 x X) as [Y|Y]; [apply I7 in Y; destruct Y as (_ & k' & e' & Y & Z); exists k', e'; split; [apply in_or_app; now left|exact Z]|].
                exists k, e. split; [apply in_or_app; right; now left|]. now split.
          -- intros (X & k' & e' & Y & Z & U). apply in_app_or in Y. destruct Y as [Y|[Y|[]]].
             ++ assert (V : dget streq (h_heads st) x <> None) by (apply I7; split; [exact X|]; exists k', e'; now split). destruct (dget streq (h_heads st) x) as [v|] eqn:Q; [|congruence]. rewrite (H3 _ _ Q). discriminate.
             ++ injection Y as <- <-. eapply (heads_upto es st1 H1); [exact U|rewrite H2; discriminate|exact X].
  Qed.
  Lemma chain_up_ok st out chains : NoDup (dkeys es) -> chain_up es = Ok (st, out, chains) -> chains_ok es st out chains.
  Proof.
    intros N H. apply (chains_step es [] (HSt [] []) [] [] st out chains); [|clear H|exact H].
    - intros k e I. now apply (dget_NoDup_In streq streq_spec).
    - refine (conj (conj _ (conj _ _)) (conj eq_refl (conj _ (conj _ (conj _ (conj _ _)))))); cbn; try easy; try constructor.
      + congruence.
      + intros (_ & k & e & [] & _).
  Qed.
End Chains.

(** ** Items *)
Lemma upto_end es x y z : upto es x y -> dget streq es y = None -> upto es x z -> dget streq es z = None -> y = z.
Proof.
  intros U. revert z. induction U as [|k e x E U IH]; intros z Y V Z.
  - inversion V; subst; [reflexivity|congruence].
  - inversion V; subst; [congruence|]. replace e0 with e in * by congruence. now apply IH.
Qed.
Lemma members_perm (chains : list (pystr * list item)) : Permutation (members chains) (flat_map snd chains ++ map (fun h => (h, None)) (dkeys chains)).
Proof.
  unfold members, dkeys. induction chains as [|[h l] c IH]; [reflexivity|]. cbn [flat_map fst snd map].
  rewrite <- !app_assoc. apply Permutation_app_head. rewrite IH. cbn [app]. apply Permutation_middle.
Qed.
Lemma letter_iff es k : NoDup (dkeys es) -> (letter es k <-> exists e, In (k, e) es /\ nonspecial (k, e) = true).
Proof.
  intros N. unfold letter, nonspecial. split.
  - intros (e & E & B). exists e. split; [now apply (dget_In streq streq_spec)|]. cbn. now rewrite (proj2 (special_iff k e)).
  - intros (e & I & B). exists e. split; [now apply (dget_NoDup_In streq streq_spec)|]. apply special_iff. cbn in B. now destruct (special k e).
Qed.
Section Items.
  Variables (es : elts) (st : hstate) (out : list item) (chains : list (pystr * list item)).
  Hypothesis N : NoDup (dkeys es).
  Hypothesis C : chains_ok es es st out chains.
  Lemma in_letter x : In x (flat_map snd chains) <-> exists k e, x = (k, Some e) /\ dget streq es k = Some e /\ letter es k.
  Proof.
    destruct C as (_ & _ & P & _). split.
    - intros I. apply (Permutation_in _ P), in_map_iff in I. destruct I as ([k e] & <- & I). apply filter_In in I. destruct I as [I1 I2]. exists k, e.
      split; [reflexivity|]. split; [now apply (dget_NoDup_In streq streq_spec)|]. apply letter_iff; [exact N|]. now exists e.
    - intros (k & e & -> & E & L). apply (Permutation_in _ (Permutation_sym P)). apply in_map_iff. exists (k, e). split; [reflexivity|]. apply filter_In.
      split; [now apply (dget_In streq streq_spec)|]. apply letter_iff in L; [|exact N]. destruct L as (e' & I & S).
      assert (E' : dget streq es k = Some e') by now apply (dget_NoDup_In streq streq_spec). now replace e with e' by congruence.
  Qed.
  Lemma in_start h : In h (dkeys chains) <-> start es h.
  Proof.
    destruct C as (H & _ & _ & _ & I5 & I6 & _). split.
    - intros I. apply in_map_iff in I. destruct I as ([h' l] & <- & I). cbn. destruct (I5 _ _ I) as (k & e & Il & Hk). destruct H as (H & _). destruct (H _ _ Hk) as (e' & E1 & [E2 E3] & _).
      split; [exact E2|]. exists k. split; [|exact E3]. assert (X : In (k, Some e) (flat_map snd chains)) by (apply in_flat_map; exists (h', l); now split).
      apply in_letter in X. destruct X as (k' & e'' & E & _ & L). injection E as -> _. exact L.
    - intros (E & x & L & U). pose proof L as L'. apply letter_iff in L'; [|exact N]. destruct L' as (e & I & S). destruct (I6 _ _ I S) as (h' & Hx & Ih).
      destruct H as (H & _). destruct (H _ _ Hx) as (e' & E1 & [E2 E3] & _). now rewrite (upto_end es x h h' U E E3 E2).
  Qed.
  Lemma in_members x : In x (members chains) <-> (exists k e, x = (k, Some e) /\ dget streq es k = Some e /\ letter es k) \/ (exists h, x = (h, None) /\ start es h).
  Proof.
    split.
    - intros I. apply (Permutation_in _ (members_perm chains)), in_app_or in I. destruct I as [I|I]; [left; now apply in_letter|right]. apply in_map_iff in I. destruct I as (h & <- & I). exists h. split; [reflexivity|]. now apply in_start.
    - intros I. apply (Permutation_in _ (Permutation_sym (members_perm chains))), in_or_app. destruct I as [I|(h & -> & I)]; [left; now apply in_letter|right]. apply in_map_iff. exists h. split; [reflexivity|]. now apply in_start.
  Qed.
  Lemma items k : In k (map fst (members chains)) <-> is_item es k.
  Proof.
    rewrite in_map_iff. split.
    - intros (x & <- & I). apply in_members in I. destruct I as [(k & e & -> & E & L)|(h & -> & S)]; [now left|now right].
    - intros [L|S].
      + pose proof L as (e & E & _). exists (k, Some e). split; [reflexivity|]. apply in_members. left. now exists k, e.
      + exists (k, None). split; [reflexivity|]. apply in_members. right. now exists k.
  Qed.
  Lemma NoDup_app {A} (l1 l2 : list A) : NoDup l1 -> NoDup l2 -> (forall x, In x l1 -> ~ In x l2) -> NoDup (l1 ++ l2).
  Proof.
    induction l1 as [|x l1 IH]; intros N1 N2 D; [exact N2|]. inversion N1; subst. cbn. constructor.
    - intros I. apply in_app_or in I. destruct I; [contradiction|]. apply (D x); [now left|assumption].
    - apply IH; try assumption. intros y I. apply D. now right.
  Qed.
  Lemma members_NoDup : NoDup (map fst (members chains)).
  Proof.
    destruct C as (_ & _ & P & Nc & _). apply (Permutation_NoDup (l := map fst (map some_item (filter nonspecial es) ++ map (fun h => (h, None)) (dkeys chains)))).
    - apply Permutation_map. rewrite <- P. symmetry. apply members_perm.
    - rewrite map_app. apply NoDup_app.
      + rewrite map_map. revert N. clear. unfold dkeys. induction es as [|[k e] l IH]; cbn; intros N; [constructor|]. inversion N; subst. destruct (nonspecial (k, e)); [|now apply IH]. cbn. constructor; [|now apply IH].
        intros I. apply H1. apply in_map_iff in I. destruct I as (x & E & I). apply filter_In in I. apply in_map_iff. exists x. now split.
      + rewrite map_map. cbn. now rewrite map_id.
      + intros x I J. rewrite map_map in J. cbn in J. rewrite map_id in J. apply in_start in J. destruct J as [J _].
        rewrite map_map in I. apply in_map_iff in I. destruct I as ([k e] & E & I). cbn in E. subst. apply filter_In in I. destruct I as [I _]. apply (dget_NoDup_In streq streq_spec) in I; [congruence|exact N].
  Qed.
  (** *** What all_children finds *)
  Definition edge (l : nat) (p c : pystr) : Prop := exists i, In i (levels l) /\ In (p, i, c) (h_kids st).
  Inductive reach (l : nat) (k : pystr) : pystr -> Prop :=
  | reach_self : reach l k k
  | reach_step c x : edge l k c -> reach l c x -> reach l k x.
  Lemma kids_of_In kids k i c : In c (kids_of kids k i) <-> In (k, i, c) kids.
  Proof.
    unfold kids_of. rewrite in_map_iff. split.
    - intros ([[p j] c'] & E & I). cbn in E. subst c'. apply filter_In in I. cbn in I. destruct I as [I S]. apply andb_prop in S. destruct S as [S1 S2]. apply streq_true in S1. apply Nat.eqb_eq in S2. now subst.
    - intros I. exists (k, i, c). split; [reflexivity|]. apply filter_In. split; [exact I|]. cbn. now rewrite streq_refl, Nat.eqb_refl.
  Qed.
  Lemma children_sound fuel l : forall k x, In x (all_children fuel (h_kids st) l k) -> reach l k x.
  Proof.
    induction fuel as [|f IH]; intros k x I; cbn [all_children] in I.
    - destruct I as [<-|[]]. constructor.
    - apply in_app_or in I. destruct I as [I|[<-|[]]]; [|constructor]. apply in_flat_map in I. destruct I as (i & Ii & I). apply in_flat_map in I. destruct I as (c & Ic & I).
      apply kids_of_In in Ic. apply reach_step with c; [now exists i|now apply IH].
  Qed.
  Lemma FOP_split {A} (R : A -> A -> Prop) l1 x l2 : ForallOrdPairs R (l1 ++ x :: l2) -> forall y, In y l1 -> R y x.
  Proof.
    induction l1 as [|z l1 IH]; intros F y I; [easy|]. cbn in F. inversion F; subst. destruct I as [->|I]; [|now apply IH].
    rewrite Forall_forall in H1. apply H1. apply in_or_app. right. now left.
  Qed.
  Lemma children_all fuel l : forall k2 k1 k x, h_kids st = k1 ++ k2 -> (forall i c, In (k, i, c) k1 -> False) -> length k2 <= fuel -> reach l k x ->
    In x (all_children fuel (h_kids st) l k).
  Proof.
    destruct C as ((_ & HE & HF) & _). induction fuel as [|f IH]; intros k2 k1 k x E Nk L R.
    - destruct R as [|c x (i & Ii & Ie) R]; [now left|]. rewrite E in Ie. destruct k2; [|cbn in L; lia]. rewrite app_nil_r in Ie. now apply Nk in Ie.
    - cbn [all_children]. apply in_or_app. destruct R as [|c x (i & Ii & Ie) R]; [right; now left|left]. apply in_flat_map. exists i. split; [exact Ii|]. apply in_flat_map. exists c. split; [now apply kids_of_In|].
      pose proof Ie as Ie'. rewrite E in Ie'. apply in_app_or in Ie'. destruct Ie' as [X|X]; [now apply Nk in X|]. apply in_split in X. destruct X as (a & b & ->).
      apply (IH b (k1 ++ a ++ [(k, i, c)])); [rewrite E, <- !app_assoc; reflexivity| |rewrite app_length in L; cbn in L; lia|exact R].
      intros i' c' I. rewrite app_assoc in I. apply in_app_or in I. destruct I as [I|[I|[]]].
      + rewrite E, app_assoc in HF. apply (FOP_split _ _ _ _ HF _ I). reflexivity.
      + injection I as -> _ _. destruct (HE _ _ _ Ie) as (e & _ & _ & _ & _ & _ & D). now apply D.
  Qed.
  Lemma children_iff l k x : In x (all_children (length (h_kids st)) (h_kids st) l k) <-> reach l k x.
  Proof. split; [apply children_sound|]. now apply (children_all _ _ (h_kids st) []). Qed.
  Lemma registered k : dget streq es k <> None -> ((exists x, letter es x /\ upto es x k) <-> dget streq (h_heads st) k <> None).
  Proof.
    intros D. destruct C as (_ & _ & _ & _ & _ & _ & H). rewrite H. split.
    - intros (x & L & U). split; [exact D|]. apply letter_iff in L; [|exact N]. destruct L as (e & I & S). exists x, e. now split.
    - intros (_ & x & e & I & S & U). exists x. split; [|exact U]. apply letter_iff; [exact N|]. now exists e.
  Qed.
  Lemma level_index l e : 1 <= l -> 1 <= t_level e -> (exists i, kids_index (t_level e) = Ok i /\ In i (levels l)) <-> 2 <= t_level e <= 3 /\ l <= t_level e.
  Proof.
    intros L E. destruct (t_level e) as [|[|[|[|n]]]]; try lia; cbn [kids_index Nat.ltb Nat.leb]; destruct l as [|[|[|[|l]]]]; try lia; cbn; split;
      try (intros (i & X & Y); try discriminate; injection X as <-; lia); intros; try lia; eexists; (split; [reflexivity|]); lia.
  Qed.
  Hypothesis LV : levels_ok es.
  Lemma edge_iff l p c : 1 <= l -> edge l p c <-> exists e, dget streq es c = Some e /\ t_base e = p /\ dget streq es p <> None /\ (exists x, letter es x /\ upto es x c) /\ 2 <= t_level e <= 3 /\ l <= t_level e.
  Proof.
    intros Ll. destruct C as ((H1 & H2 & _) & _). split.
    - intros (i & Ii & Ie). destruct (H2 _ _ _ Ie) as (e & E1 & E2 & E3 & E4 & E5 & _). exists e. repeat split; try assumption.
      + destruct (dget streq (h_heads st) p) as [h|] eqn:Hp; [|congruence]. destruct (H1 _ _ Hp) as (? & X & _). congruence.
      + apply registered; [congruence|exact E4].
      + apply (level_index l e Ll (LV _ _ E1)). now exists i.
      + apply (level_index l e Ll (LV _ _ E1)). now exists i.
      + apply (level_index l e Ll (LV _ _ E1)). now exists i.
    - intros (e & E1 & E2 & E3 & E4 & E5). apply (level_index l e Ll (LV _ _ E1)) in E5. destruct E5 as (i & Ki & Ii). exists i. split; [exact Ii|].
      apply registered in E4; [|congruence]. destruct (dget streq (h_heads st) c) as [h|] eqn:Hc; [|congruence]. destruct (H1 _ _ Hc) as (e' & F1 & _ & F2). replace e' with e in * by congruence.
      destruct F2 as [[F2 _]|(_ & _ & i' & F3 & F4)]; [congruence|]. rewrite Ki in F3. injection F3 as <-. now rewrite <- E2.
  Qed.
  Lemma reach_snoc l k p c : reach l k p -> edge l p c -> reach l k c.
  Proof. induction 1 as [|k c' x E R IH]; intros X; [apply reach_step with c; [exact X|constructor]|]. apply reach_step with c'; [exact E|now apply IH]. Qed.
  Lemma reach_below l r x : 1 <= l -> dget streq es r <> None -> reach l r x <-> below es l r x.
  Proof.
    intros Ll Dr. split.
    - assert (G : forall k, below es l r k -> reach l k x -> below es l r x).
      { intros k B R. revert B. induction R as [|k c x E R IH]; intros B; [exact B|]. apply IH. apply (edge_iff l k c Ll) in E. destruct E as (e & E1 & E2 & E3 & E4 & E5 & E6). now apply (below_step es l r k c e). }
      intros R. apply (G r); [constructor|exact R].
    - intros B. induction B as [|p k e B IH E P Rg L1 L2]; [constructor|]. apply reach_snoc with p; [exact IH|]. apply edge_iff; [exact Ll|]. exists e. repeat split; try assumption; try lia.
      destruct B as [|p' k' e' ? E' ? ? ? ?]; [exact Dr|congruence].
  Qed.
End Items.

(** ** Labels *)
Definition gts (n : nat) : pystr := repeat 62%N n.
Lemma marks_gts n : marks n = gts (Nat.min n 4).
Proof. destruct n as [|[|[|[|[|n]]]]]; reflexivity. Qed.
Lemma marksZ_gts z : exists n, marksZ z = gts n.
Proof.
  unfold marksZ. destruct (Z.ltb z 0); [|eexists; apply marks_gts]. exists (Nat.min (Z.to_nat (4 + z)) 4). apply (marks_gts (Z.to_nat (4 + z))).
Qed.
Lemma gts_snoc n : gts (S n) = gts n ++ [62%N].
Proof. unfold gts. rewrite <- repeat_cons. reflexivity. Qed.
Lemma gts_inj n m : gts n = gts m -> n = m.
Proof. intros E. apply (f_equal (@length N)) in E. unfold gts in E. now rewrite !repeat_length in E. Qed.
Lemma plain_le k k' n m : plain k -> plain k' -> n <= m -> k ++ gts n = k' ++ gts m -> k = k' /\ n = m.
Proof.
  intros [_ P] [Ne _]. revert m. induction n as [|n IH]; intros m L E.
  - cbn in E. rewrite app_nil_r in E. destruct m as [|m]; [cbn in E; now rewrite app_nil_r in E|]. rewrite gts_snoc, app_assoc in E. apply P in E. now apply app_eq_nil in E.
  - destruct m as [|m]; [lia|]. rewrite !gts_snoc, !app_assoc in E. apply app_inj_tail in E. destruct E as [E _]. destruct (IH m ltac:(lia) E). now subst.
Qed.
Lemma plain_inj k k' n m : plain k -> plain k' -> k ++ gts n = k' ++ gts m -> k = k' /\ n = m.
Proof.
  intros P P' E. destruct (Nat.le_ge_cases n m) as [L|L]; [now apply plain_le|]. destruct (plain_le k' k m n P' P L (eq_sym E)). now subst.
Qed.
Lemma dlabels_nth dlev l : forall last q d, nth_error (dlabels dlev last l) q = Some d ->
  exists p y, nth_error ((last, None) :: l) q = Some p /\ nth_error l q = Some y /\ d = fst y ++ marksZ (dlev (fst p) (fst y)) \/
  False.
Proof.
  induction l as [|x l IH]; intros last q d H; [now destruct q|]. destruct q as [|q].
  - cbn in H. injection H as <-. exists (last, None), x. now left.
  - cbn [dlabels nth_error] in H. destruct (IH _ _ _ H) as (p & y & [(A & B & D)|[]]). destruct q as [|q].
    + exists x, y. left. cbn in *. injection A as <-. now split.
    + exists p, y. left. now split.
Qed.

Lemma sorted_nth {A} (R : A -> A -> Prop) l : StronglySorted R l -> forall i j x y, i < j -> nth_error l i = Some x -> nth_error l j = Some y -> R x y.
Proof.
  induction 1 as [|a l S IH F]; intros i j x y L X Y; [now destruct i|]. destruct j as [|j]; [lia|]. cbn in Y. destruct i as [|i].
  - cbn in X. injection X as <-. rewrite Forall_forall in F. apply F. eapply nth_error_In; eassumption.
  - cbn in X. eapply IH; [|eassumption|eassumption]. lia.
Qed.
Lemma op_items_In K os x q : nth_error K q = Some x -> in_new os q -> In x (flat_map (op_items K) os).
Proof.
  intros Q (o & I & T & L). apply in_flat_map. exists o. split; [exact I|]. unfold op_items. destruct T as [-> | ->].
  - apply nth_error_split in Q. destruct Q as (a & b & -> & La). subst q. rewrite skipn_app. rewrite firstn_app. apply in_or_app. right.
    replace (o_j1 o - length a) with 0 by lia. cbn [skipn]. rewrite skipn_length. destruct (o_j2 o - o_j1 o - (length a - o_j1 o)) as [|n] eqn:E; [lia|]. now left.
  - apply nth_error_split in Q. destruct Q as (a & b & -> & La). subst q. rewrite skipn_app. rewrite firstn_app. apply in_or_app. right.
    replace (o_j1 o - length a) with 0 by lia. cbn [skipn]. rewrite skipn_length. destruct (o_j2 o - o_j1 o - (length a - o_j1 o)) as [|n] eqn:E; [lia|]. now left.
Qed.

Section Main.
  Variables kleb dleb : pystr -> pystr -> bool.
  Variable dlev : pystr -> pystr -> Z.
  Variable enum : list item -> list item.
  Variable ops : list pystr -> list pystr -> list op.
  Hypothesis En : forall l, Permutation (enum l) l.
  Hypothesis Op : forall a b, ops_ok streq a b 0 0 (ops a b).
  Notation mini := (minimise kleb dleb dlev enum ops).

  Lemma isort_sorted_on (leb : pystr -> pystr -> bool) (l : list item) : orders (fun x => In x (map fst l)) leb ->
    StronglySorted (fun x y => leb (fst x) (fst y) = true) (isort (fun x y => leb (fst x) (fst y)) l).
  Proof.
    intros [T1 T2]. assert (G : forall m, incl m l -> StronglySorted (fun x y => leb (fst x) (fst y) = true) (isort (fun x y => leb (fst x) (fst y)) m)).
    { assert (Ins : forall x m, In x l -> incl m l -> StronglySorted (fun x y => leb (fst x) (fst y) = true) m -> StronglySorted (fun x y => leb (fst x) (fst y) = true) (insert (fun x y => leb (fst x) (fst y)) x m)).
      { intros x m X M S. revert M. induction S as [|y m S IH F]; intros M; cbn; [repeat constructor|]. assert (Y : In y l) by (apply M; now left).
        assert (M' : incl m l) by (intros z Z; apply M; now right). destruct (leb (fst x) (fst y)) eqn:E.
        - constructor; [now constructor|]. constructor; [exact E|]. rewrite Forall_forall in *. intros z Z. apply (T2 _ (fst y)); try (apply in_map; auto); auto.
        - constructor; [auto|]. rewrite Forall_forall in *. intros z Z. apply (Permutation_in _ (Permutation_sym (insert_perm _ x m))) in Z. destruct Z as [<-|Z]; [|auto].
          destruct (T1 (fst x) (fst y)); try (apply in_map; auto); congruence. }
      induction m as [|x m IH]; intros M; cbn; [constructor|]. apply Ins; [apply M; now left| |apply IH; intros z Z; apply M; now right].
      intros z Z. apply in_isort in Z. apply M. now right. }
    apply G. apply incl_refl.
  Qed.

  Section Items.
    Variable ks : list item.
    Hypothesis Nk : NoDup (map fst ks).
    Hypothesis Pl : forall x, In x (map fst ks) -> plain x.
    Hypothesis K1 : orders (fun x => In x (map fst ks)) kleb.
    Hypothesis D1 : orders (fun x => In x (map fst ks)) dleb.
    Hypothesis D3 : forall x y, In x (map fst ks) -> In y (map fst ks) -> dleb x y = true -> (1 <= dlev x y <= 4)%Z.
    Let K := korder kleb ks.
    Let D := dorder dleb ks.
    Let os := ops (dlist dleb dlev ks) (map klabel K).
    Lemma in_K x : In x K <-> In x ks. Proof. apply in_isort. Qed.
    Lemma in_D x : In x D <-> In x ks. Proof. apply in_isort. Qed.
    Lemma sorted_K : StronglySorted (fun x y => kleb (fst x) (fst y) = true) K.
    Proof. now apply isort_sorted_on. Qed.
    Lemma sorted_D : StronglySorted (fun x y => dleb (fst x) (fst y) = true) D.
    Proof. now apply isort_sorted_on. Qed.
    Lemma fst_inj x y : In x ks -> In y ks -> fst x = fst y -> x = y.
    Proof.
      intros X Y E. revert Nk X Y. clear -E. induction ks as [|z l IH]; intros N X Y; [easy|]. cbn in N. inversion N; subst. destruct X as [->|X], Y as [->|Y]; try reflexivity.
      - exfalso. apply H1. rewrite E. now apply in_map.
      - exfalso. apply H1. rewrite <- E. now apply in_map.
      - now apply IH.
    Qed.
    (** the place in DUCET order of an item that is neither inserted nor replaced *)
    Lemma equal_item q x : nth_error K q = Some x -> ~ In x (flat_map (op_items K) os) ->
      exists p, In (p, q) (eq_pairs os) /\ nth_error D p = Some x /\
      match p with
      | O => klabel x = fst x ++ lit ">"
      | S p' => exists y, nth_error D p' = Some y /\ klabel x = fst x ++ marksZ (dlev (fst y) (fst x))
      end.
    Proof.
      intros Q N. destruct (ops_pairs streq _ _ os 0 0 (Op _ _)) as (P1 & _ & P3).
      assert (L : q < length (map klabel K)) by (rewrite map_length; apply nth_error_Some; congruence).
      destruct (P3 q ltac:(lia)) as [(p & I)|I]; [|exfalso; apply N; eapply op_items_In; eassumption].
      exists p. split; [exact I|]. destruct (P1 _ _ I) as (_ & _ & E). unfold eqat in E. rewrite nth_error_map, Q in E. cbn [option_map] in E.
      unfold dlist in E. fold D in E. destruct (nth_error _ p) as [d|] eqn:Ed in E; [|discriminate]. apply streq_true in E. subst d.
      assert (Px : plain (fst x)) by (apply Pl, in_map, in_K; eapply nth_error_In; eassumption).
      assert (Kx : exists n, klabel x = fst x ++ gts n) by (unfold klabel; destruct (snd x); [rewrite marks_gts; now eexists|now exists 1]). destruct Kx as [n Kx].
      destruct D as [|y0 l] eqn:ED; [now destruct p|]. assert (Iy : forall y, In y (y0 :: l) -> In y ks) by (intros y; rewrite <- ED; apply in_D).
      destruct p as [|p].
      - cbn in Ed. injection Ed as Ed. rewrite Kx in Ed. change [62%N] with (gts 1) in Ed. apply plain_inj in Ed; [|apply Pl, in_map, Iy; now left|exact Px].
        destruct Ed as [Ed <-]. split; [|exact Kx]. cbn. f_equal. apply fst_inj; [apply Iy; now left|apply in_K; eapply nth_error_In; eassumption|exact Ed].
      - cbn [nth_error] in Ed. destruct (dlabels_nth _ _ _ _ _ Ed) as (p0 & y & [(A & B & E)|[]]). destruct (marksZ_gts (dlev (fst p0) (fst y))) as [m M].
        pose proof E as E'. rewrite Kx, M in E'. apply plain_inj in E'; [|exact Px|apply Pl, in_map, Iy; right; eapply nth_error_In; eassumption].
        destruct E' as [E1 E2]. assert (Exy : y = x) by (apply fst_inj; [apply Iy; right; eapply nth_error_In; eassumption|apply in_K; eapply nth_error_In; eassumption|now symmetry]). subst y.
        split; [exact B|]. destruct p as [|p].
        + exists y0. split; [reflexivity|]. cbn in A. injection A as <-. exact E.
        + exists p0. split; [exact A|exact E].
    Qed.
    Lemma equal_order x y : In x ks -> In y ks -> ~ In x (flat_map (op_items K) os) -> ~ In y (flat_map (op_items K) os) ->
      kleb (fst x) (fst y) = true -> kleb (fst y) (fst x) = false -> dleb (fst x) (fst y) = true.
    Proof.
      intros X Y Nx Ny L S. apply in_K, In_nth_error in X. apply in_K, In_nth_error in Y. destruct X as [q X], Y as [q' Y].
      destruct (equal_item _ _ X Nx) as (p & Ip & Dp & _). destruct (equal_item _ _ Y Ny) as (p' & Ip' & Dp' & _).
      assert (Lq : q < q').
      { destruct (Nat.lt_trichotomy q q') as [A|[A|A]]; [exact A| |].
        - subst. assert (x = y) by congruence. subst. congruence.
        - pose proof (sorted_nth _ _ sorted_K _ _ _ _ A Y X). cbn in H. congruence. }
      destruct (ops_pairs streq _ _ os 0 0 (Op _ _)) as (_ & P2 & _). pose proof (P2 _ _ _ _ Ip Ip' Lq) as Lp.
      exact (sorted_nth _ _ sorted_D _ _ _ _ Lp Dp Dp').
    Qed.
    Lemma equal_level x e : In (x, Some e) ks -> ~ In (x, Some e) (flat_map (op_items K) os) -> 1 <= t_level e <= 4 ->
      (t_level e = 1 /\ forall y, In y (map fst ks) -> dleb x y = true) \/
      exists p, In p (map fst ks) /\ dleb p x = true /\ dlev p x = Z.of_nat (t_level e) /\ forall y, In y (map fst ks) -> dleb y p = true \/ dleb x y = true.
    Proof.
      intros X Nx Lv. apply in_K, In_nth_error in X. destruct X as [q X]. destruct (equal_item _ _ X Nx) as (p & _ & Dp & M).
      assert (Lb : forall i y, nth_error D i = Some y -> dleb (fst y) (fst y) = true).
      { intros i y Y. apply nth_error_In in Y. apply (proj1 (in_D _)), (in_map fst) in Y. destruct (proj1 D1 (fst y) (fst y) Y Y); assumption. }
      assert (Cmp : forall i j y z, i <= j -> nth_error D i = Some y -> nth_error D j = Some z -> dleb (fst y) (fst z) = true).
      { intros i j y z L Y Z. destruct (Nat.eq_dec i j) as [->|]; [replace z with y by congruence; now apply (Lb j)|]. eapply (sorted_nth _ _ sorted_D); [|eassumption|eassumption]. lia. }
      unfold klabel in M. cbn [fst snd] in M. destruct p as [|p].
      - left. apply app_inv_head in M. rewrite marks_gts in M. change (lit ">") with (gts 1) in M. apply gts_inj in M. split; [lia|].
        intros y Y. apply in_map_iff in Y. destruct Y as (z & <- & Z). apply in_D, In_nth_error in Z. destruct Z as [j Z]. apply (Cmp 0 j (x, Some e) z); [lia|exact Dp|exact Z].
      - right. destruct M as (y & Dy & M). apply app_inv_head in M. exists (fst y). assert (Iy : In y ks) by (apply in_D; eapply nth_error_In; eassumption).
        assert (Ly : dleb (fst y) x = true) by (apply (Cmp p (S p) y (x, Some e)); [lia|assumption|assumption]).
        split; [now apply in_map|]. split; [exact Ly|]. split.
        + pose proof (D3 _ _ (in_map fst _ _ Iy) (in_map fst _ _ (proj1 (in_K _) (nth_error_In _ _ X))) Ly) as R. cbn [fst] in R. unfold marksZ in M. destruct (Z.ltb_spec (dlev (fst y) x) 0); [lia|]. rewrite !marks_gts in M. apply gts_inj in M. lia.
        + intros z Z. apply in_map_iff in Z. destruct Z as (w & <- & W). apply in_D, In_nth_error in W. destruct W as [j W].
          destruct (Nat.le_gt_cases j p); [left; now apply (Cmp j p)|right; apply (Cmp (S p) j (x, Some e)); [lia|assumption|assumption]].
    Qed.
  End Items.

  Theorem C76_structure : forall es es', NoDup (dkeys es) -> (forall k e, dget streq es k = Some e -> 1 <= t_level e <= 4) -> (forall x, is_item es x -> plain x) ->
    orders (is_item es) kleb -> orders (is_item es) dleb -> (forall x y, is_item es x -> is_item es y -> dleb x y = true -> (1 <= dlev x y <= 4)%Z) ->
    mini es = Ok es' ->
    exists R : pystr -> Prop,
      (forall k e, dget streq es k = Some e -> t_before e <> 0%N \/ 1 < length k -> R k) /\
      (forall x y, is_item es x -> is_item es y -> ~ R x -> ~ R y -> kleb x y = true -> kleb y x = false -> dleb x y = true) /\
      (forall x e, letter es x -> dget streq es x = Some e -> ~ R x ->
         (t_level e = 1 /\ forall y, is_item es y -> dleb x y = true) \/
         exists p, is_item es p /\ dleb p x = true /\ dlev p x = Z.of_nat (t_level e) /\ forall y, is_item es y -> dleb y p = true \/ dleb x y = true) /\
      (forall k e, In (k, e) es' <-> In (k, e) es /\ exists r er, R r /\ dget streq es r = Some er /\ below es (t_level er) r k).
  Proof.
    intros es es' N Lv Pl Ko Do Dv H. unfold minimise in H. destruct (chain_up es) as [[[st out] chains]|] eqn:Cu; cbn [bind] in H; [|discriminate].
    apply chain_up_ok in Cu; [|exact N]. set (ks := enum (members chains)) in *.
    assert (Pk : Permutation ks (members chains)) by apply En.
    assert (Ik : forall x, In x (map fst ks) <-> is_item es x).
    { intros x. rewrite <- (items es st out chains N Cu). split; apply Permutation_in; [apply Permutation_map; exact Pk|apply Permutation_map; symmetry; exact Pk]. }
    assert (Lo : levels_ok es) by (intros k e E; specialize (Lv k e E); lia).
    destruct ks as [|k0 kr] eqn:Ek.
    - injection H as <-. exists (fun _ => True). refine (conj _ (conj _ (conj _ _))).
      + intros. exact I.
      + intros x y X. exfalso. exact (proj2 (Ik x) X).
      + intros x e X. exfalso. exact (proj2 (Ik x) (or_introl X)).
      + intros k e. split; [|now intros []]. intros I'. split; [exact I'|]. exists k, e. split; [exact I|]. split; [now apply (dget_NoDup_In streq streq_spec)|constructor].
    - rewrite <- Ek in *. assert (Nk : NoDup (map fst ks)).
      { eapply Permutation_NoDup; [apply Permutation_map; symmetry; exact Pk|]. now apply (members_NoDup es st out chains). }
      clear Ek k0 kr. injection H as <-. set (K := korder kleb ks). set (os := ops (dlist dleb dlev ks) (map klabel K)). set (new := flat_map (op_items K) os).
      pose proof Cu as (Hh & Ho & _).
      assert (Ko' : orders (fun x => In x (map fst ks)) kleb).
      { destruct Ko as [A B]. split; [intros x y X Y; apply A; now apply Ik|intros x y z X Y Z; apply B; now apply Ik]. }
      assert (Do' : orders (fun x => In x (map fst ks)) dleb).
      { destruct Do as [A B]. split; [intros x y X Y; apply A; now apply Ik|intros x y z X Y Z; apply B; now apply Ik]. }
      assert (Dv' : forall x y, In x (map fst ks) -> In y (map fst ks) -> dleb x y = true -> (1 <= dlev x y <= 4)%Z) by (intros x y X Y; apply Dv; now apply Ik).
      assert (Ino : forall k e, In (k, Some e) out <-> dget streq es k = Some e /\ special k e = true).
      { intros k e. rewrite Ho, in_map_iff. split.
        - intros ([k' e'] & E & I). injection E as <- <-. apply filter_In in I. split; [now apply (dget_NoDup_In streq streq_spec)|]. apply I.
        - intros [E S]. exists (k, e). split; [reflexivity|]. apply filter_In. split; [now apply (dget_In streq streq_spec)|exact S]. }
      assert (Ons : forall k, ~ In (k, None) out) by (intros k; rewrite Ho, in_map_iff; intros (p & E & _); discriminate).
      assert (Inew : forall x, In x new -> In x ks).
      { intros x I. apply in_flat_map in I. destruct I as (o & _ & I). apply (in_K ks). fold K. unfold op_items in I. destruct (o_tag o); try easy.
        - apply In_nth_error in I. destruct I as [n I]. assert (X : In x (skipn (o_j1 o) K)) by (rewrite <- (firstn_skipn (o_j2 o - o_j1 o) (skipn (o_j1 o) K)); apply in_or_app; left; eapply nth_error_In; exact I).
          rewrite <- (firstn_skipn (o_j1 o) K). apply in_or_app. now right.
        - apply In_nth_error in I. destruct I as [n I]. assert (X : In x (skipn (o_j1 o) K)) by (rewrite <- (firstn_skipn (o_j2 o - o_j1 o) (skipn (o_j1 o) K)); apply in_or_app; left; eapply nth_error_In; exact I).
          rewrite <- (firstn_skipn (o_j1 o) K). apply in_or_app. now right. }
      assert (Iks : forall x, In x ks -> (exists k e, x = (k, Some e) /\ dget streq es k = Some e /\ letter es k) \/ (exists h, x = (h, None) /\ start es h)).
      { intros x I. apply (in_members es st out chains N Cu). eapply Permutation_in; eassumption. }
      exists (fun r => In r (map fst (out ++ new))). refine (conj _ (conj _ (conj _ _))).
      + intros k e E S. rewrite map_app. apply in_or_app. left. apply in_map_iff. exists (k, Some e). split; [reflexivity|]. apply Ino. split; [exact E|].
        destruct (special k e) eqn:X; [reflexivity|]. apply special_iff in X. lia.
      + intros x y X Y Nx Ny L S. apply Ik, in_map_iff in X. apply Ik, in_map_iff in Y. destruct X as (x' & <- & X), Y as (y' & <- & Y).
        rewrite map_app in Nx, Ny. apply (equal_order ks Nk ltac:(intros z Z; apply Pl, Ik, Z) Ko' Do'); try assumption.
        * intros I. apply Nx. apply in_or_app. right. now apply in_map.
        * intros I. apply Ny. apply in_or_app. right. now apply in_map.
      + intros x e Lx E Nx. assert (X : In (x, Some e) ks).
        { eapply Permutation_in; [symmetry; exact Pk|]. apply (in_members es st out chains N Cu). left. now exists x, e. }
        destruct (equal_level ks Nk ltac:(intros z Z; apply Pl, Ik, Z) Do' Dv' x e X) as [(A & B)|(p & A & B & C & F)].
        * intros I. apply Nx. rewrite map_app. apply in_or_app. right. change x with (fst (x, Some e)). now apply in_map.
        * now apply (Lv x).
        * left. split; [exact A|]. intros y Y. apply B. now apply Ik.
        * right. exists p. split; [now apply Ik|]. split; [exact B|]. split; [exact C|]. intros y Y. apply F. now apply Ik.
      + intros k e. rewrite filter_In. cbn [fst]. split.
        * intros [I X]. split; [exact I|]. apply existsb_exists in X. destruct X as (y & Y & E). apply streq_true in E. subst y.
          unfold keeps in Y. apply in_flat_map in Y. destruct Y as ([r [er|]] & Ir & Y).
          -- cbn [fst snd] in Y. apply children_iff with (es := es) (out := out) (chains := chains) in Y; [|exact Cu].
             assert (Er : dget streq es r = Some er).
             { apply in_app_or in Ir. destruct Ir as [Ir|Ir]; [now apply Ino in Ir|]. apply Inew, Iks in Ir. destruct Ir as [(k' & e' & E & E' & _)|(h & E & _)]; [|discriminate]. now injection E as -> ->. }
             apply (reach_below es st out chains N Cu Lo) in Y; [|now apply (Lo r)|congruence].
             exists r, er. split; [change r with (fst (r, Some er)); now apply in_map|]. now split.
          -- cbn in Y. destruct Y as [<-|[]]. exfalso. apply in_app_or in Ir. destruct Ir as [Ir|Ir]; [now apply Ons in Ir|]. apply Inew, Iks in Ir. destruct Ir as [(k' & e' & E & _)|(h & E & S)]; [discriminate|].
             injection E as ->. destruct S as [S _]. apply (dget_NoDup_In streq streq_spec) in I; [congruence|exact N].
        * intros (I & r & er & Rr & Er & B). split; [exact I|]. apply existsb_exists. exists k. split; [|apply streq_refl].
          apply in_map_iff in Rr. destruct Rr as ([r' o] & E & Ir). cbn in E. subst r'. unfold keeps. apply in_flat_map. exists (r, o). split; [exact Ir|].
          assert (Eo : o = Some er).
          { apply in_app_or in Ir. destruct Ir as [Ir|Ir].
            - destruct o as [e'|]; [|now apply Ons in Ir]. apply Ino in Ir. destruct Ir. congruence.
            - apply Inew, Iks in Ir. destruct Ir as [(k' & e' & E & E' & _)|(h & E & S)]; injection E as -> ->; [congruence|]. destruct S. congruence. }
          subst o. cbn [fst snd]. apply (children_iff es st out chains Cu). apply (reach_below es st out chains N Cu Lo); [now apply (Lo r)|congruence|exact B].
  Qed.

  (** Nothing is added, changed or moved: the result is what is left after deleting entries. *)
  Theorem C76_only_deletes : forall es es', mini es = Ok es' -> exists keep : pystr -> bool, es' = filter (fun p => keep (fst p)) es.
  Proof.
    intros es es' H. unfold minimise in H. destruct (chain_up es) as [[[st out] chains]|]; cbn [bind] in H; [|discriminate].
    destruct (enum (members chains)) as [|x l]; injection H as <-.
    - exists (fun _ => true). induction es as [|p es IH]; [reflexivity|]. cbn. now rewrite <- IH.
    - now eexists (fun k => existsb (streq k) _).
  Qed.
  (** Contractions, and what is placed before something, stay. *)
  Theorem C76_special_kept : forall es es' k e, NoDup (dkeys es) -> mini es = Ok es' -> In (k, e) es -> t_before e <> 0%N \/ 1 < length k -> In (k, e) es'.
  Proof.
    intros es es' k e N H I S. unfold minimise in H. destruct (chain_up es) as [[[st out] chains]|] eqn:Cu; cbn [bind] in H; [|discriminate].
    apply chain_up_ok in Cu; [|exact N]. destruct Cu as (_ & Ho & _). destruct (enum (members chains)) as [|x l]; injection H as <-; [exact I|].
    apply filter_In. split; [exact I|]. cbn [fst]. apply existsb_exists. exists k. split; [|apply streq_refl]. unfold keeps. apply in_flat_map. exists (k, Some e). split.
    - apply in_or_app. left. rewrite Ho. apply in_map_iff. exists (k, e). split; [reflexivity|]. apply filter_In. split; [exact I|]. cbn [fst snd].
      destruct (special k e) eqn:X; [reflexivity|]. apply special_iff in X. lia.
    - cbn [snd fst]. destruct (length (h_kids st)); [now left|]. cbn [all_children]. apply in_or_app. right. now left.
  Qed.
  (** Among the entries that are dropped the order of the tailoring is the order of DUCET. *)
  Theorem C76_dropped_order : forall es es' x y, NoDup (dkeys es) -> (forall k e, dget streq es k = Some e -> 1 <= t_level e <= 4) -> (forall x, is_item es x -> plain x) ->
    orders (is_item es) kleb -> orders (is_item es) dleb -> (forall x y, is_item es x -> is_item es y -> dleb x y = true -> (1 <= dlev x y <= 4)%Z) ->
    mini es = Ok es' -> In x (dkeys es) -> In y (dkeys es) -> ~ In x (dkeys es') -> ~ In y (dkeys es') ->
    kleb x y = true -> kleb y x = false -> dleb x y = true.
  Proof.
    intros es es' x y N Lv Pl Ko Do Dv H X Y Nx Ny L L'. destruct (C76_structure es es' N Lv Pl Ko Do Dv H) as (R & R1 & R2 & _ & R4).
    assert (G : forall z, In z (dkeys es) -> ~ In z (dkeys es') -> is_item es z /\ ~ R z).
    { intros z Z Nz. apply in_map_iff in Z. destruct Z as ([k e] & <- & Z). cbn [fst] in *. pose proof (dget_NoDup_In streq streq_spec es k e N Z) as E.
      assert (NR : ~ R k). { intros Rk. apply Nz. apply in_map_iff. exists (k, e). split; [reflexivity|]. apply R4. split; [exact Z|]. exists k, e. split; [exact Rk|]. split; [exact E|constructor]. }
      split; [|exact NR]. left. exists e. split; [exact E|]. destruct (N.eq_dec (t_before e) 0), (Nat.le_gt_cases (length k) 1); try (now split); exfalso; apply NR, (R1 k e E); auto. }
    destruct (G x X Nx), (G y Y Ny). now apply R2.
  Qed.

  (** ** When it ends *)
  Lemma head_ends es (rank : pystr -> nat) : 
    (forall k e, dget streq es k = Some e -> dget streq es (t_base e) <> None -> rank (t_base e) < rank k /\ t_level e <= 3) ->
    forall fuel vs st k e, dget streq es k = Some e -> NoDup vs -> incl vs (dkeys es) -> (forall v, In v vs -> rank k < rank v) -> S (length es) <= length vs + fuel ->
    exists r, head fuel es st k e = Ok r.
  Proof.
    intros A. induction fuel as [|f IH]; intros vs st k e E Nv Iv Rv L.
    - exfalso. apply NoDup_incl_length in Iv; [|exact Nv]. unfold dkeys in Iv. rewrite map_length in Iv. lia.
    - cbn [head]. destruct (dget streq (h_heads st) k) as [h|]; [now eexists|]. destruct (dget streq es (t_base e)) as [b|] eqn:Eb; [|now eexists].
      destruct (A k e E ltac:(congruence)) as [A1 A2]. destruct (IH (k :: vs) st (t_base e) b Eb) as [r Er].
      + constructor; [|exact Nv]. intros I. specialize (Rv _ I). lia.
      + intros v [<-|V]; [|now apply Iv]. apply (dget_In streq streq_spec) in E. now apply (in_map fst) in E.
      + intros v [<-|V]; [exact A1|]. specialize (Rv _ V). lia.
      + cbn [length]. lia.
      + rewrite Er. cbn [bind]. destruct (t_level e) as [|[|[|[|n]]]]; [now eexists| | | |lia]; now eexists.
  Qed.
  Theorem C76_ends : forall es (rank : pystr -> nat), NoDup (dkeys es) ->
    (forall k e, dget streq es k = Some e -> dget streq es (t_base e) <> None -> rank (t_base e) < rank k /\ t_level e <= 3) ->
    exists es', mini es = Ok es'.
  Proof.
    intros es rank N A. unfold minimise. assert (G : exists r, chain_up es = Ok r).
    { unfold chain_up. assert (H : forall l r, incl l es -> exists r', fold_left (chain_step es) l (Ok r) = Ok r'); [|apply H, incl_refl].
      induction l as [|[k e] l IH]; intros [[st out] ch] I; [now eexists|]. cbn [fold_left]. unfold chain_step at 2. cbn [bind].
      destruct (special k e); [apply IH; intros z Z; apply I; now right|].
      destruct (head_ends es rank A (S (length es)) [] st k e) as [[st' h] E]; [apply (dget_NoDup_In streq streq_spec); [exact N|apply I; now left]|constructor|easy|easy|cbn; lia|].
      rewrite E. cbn [bind]. apply IH. intros z Z. apply I. now right. }
    destruct G as [[[st out] ch] ->]. cbn [bind]. destruct (enum (members ch)); now eexists.
  Qed.
  (** ... and only then: a chain that never leaves the tailoring, or an '=' within it, raises. *)
  Theorem C76_ends_only : forall es es' x, NoDup (dkeys es) -> mini es = Ok es' -> letter es x ->
    (exists h, upto es x h /\ dget streq es h = None) /\
    forall k e, upto es x k -> dget streq es k = Some e -> dget streq es (t_base e) <> None -> t_level e <= 3.
  Proof.
    intros es es' x N H L. unfold minimise in H. destruct (chain_up es) as [[[st out] chains]|] eqn:Cu; cbn [bind] in H; [|discriminate].
    apply chain_up_ok in Cu; [|exact N]. clear H. pose proof Cu as ((A & _) & _). 
    assert (Rg : forall k, dget streq es k <> None -> upto es x k -> exists h, dget streq (h_heads st) k = Some h).
    { intros k E U. destruct (dget streq (h_heads st) k) as [h|] eqn:X; [now exists h|]. exfalso. assert (Y : dget streq (h_heads st) k <> None); [|congruence].
      apply (registered es st out chains N Cu k E). now exists x. }
    split.
    - destruct (Rg x) as [h E]; [destruct L as (e & E & _); congruence|constructor|]. destruct (A _ _ E) as (_ & _ & (X & Y) & _). now exists h.
    - intros k e U E B. destruct (Rg k ltac:(congruence) U) as [h Eh]. destruct (A _ _ Eh) as (e' & E' & _ & X). replace e' with e in * by congruence.
      destruct X as [[X _]|(_ & _ & i & X & _)]; [congruence|]. destruct (t_level e) as [|[|[|[|n]]]]; cbn in X; try lia. discriminate.
  Qed.
End Main.

(** ** Determinism, and nothing to say *)
Definition strict (P : pystr -> Prop) (leb : pystr -> pystr -> bool) : Prop := forall x y, P x -> P y -> leb x y = true -> leb y x = true -> x = y.

Lemma sorts_unique leb (l m : list item) : NoDup (map fst l) -> Permutation l m -> orders (fun x => In x (map fst l)) leb -> strict (fun x => In x (map fst l)) leb ->
  isort (fun x y => leb (fst x) (fst y)) l = isort (fun x y => leb (fst x) (fst y)) m.
Proof.
  intros N P O S. apply (sorted_perm_unique (fun x y => leb (fst x) (fst y))).
  - intros a b A B L1 L2. apply in_isort in A. apply in_isort in B. apply (fst_inj l N); [assumption|assumption|]. apply S; try assumption; now apply in_map.
  - now apply isort_sorted_on.
  - apply isort_sorted_on. destruct O as [O1 O2]. assert (Q : forall x, In x (map fst m) -> In x (map fst l)) by (intros x; apply Permutation_in, Permutation_map; now symmetry).
    split; [intros x y X Y; apply O1; auto|intros x y z X Y Z; apply O2; auto].
  - rewrite <- !isort_perm. exact P.
Qed.

Lemma sorted_adjacent {A} (R : A -> A -> Prop) pre p x rest : StronglySorted R (pre ++ p :: x :: rest) ->
  R p x /\ forall y, In y (pre ++ p :: x :: rest) -> R y p \/ y = p \/ y = x \/ R x y.
Proof.
  induction pre as [|a pre IH]; intros S; cbn [app] in *; inversion S as [|? ? S' F]; subst.
  - inversion S' as [|? ? S2 F2]; subst. rewrite Forall_forall in F, F2. split; [apply F; now left|]. intros y [<-|[<-|I]]; auto.
  - destruct (IH S') as [B C]. split; [exact B|]. intros y [<-|I]; [|now apply C]. left. rewrite Forall_forall in F. apply F. apply in_or_app. right. now left.
Qed.

Section More.
  Variables kleb dleb : pystr -> pystr -> bool.
  Variable dlev : pystr -> pystr -> Z.
  (** When no two items have equal keys the result does not depend on the order in which a set is enumerated. *)
  Theorem C76_deterministic : forall enum enum' ops es, NoDup (dkeys es) -> (forall l, Permutation (enum l) l) -> (forall l, Permutation (enum' l) l) ->
    orders (is_item es) kleb -> orders (is_item es) dleb -> strict (is_item es) kleb -> strict (is_item es) dleb ->
    minimise kleb dleb dlev enum ops es = minimise kleb dleb dlev enum' ops es.
  Proof.
    intros enum enum' ops es N E1 E2 Ko Do Ks Ds. unfold minimise. destruct (chain_up es) as [[[st out] chains]|] eqn:Cu; cbn [bind]; [|reflexivity].
    apply chain_up_ok in Cu; [|exact N]. set (l := enum (members chains)). set (m := enum' (members chains)).
    assert (P : Permutation l m) by (unfold l, m; now rewrite E1, E2).
    assert (Il : forall x, In x (map fst l) <-> is_item es x).
    { intros x. rewrite <- (items es st out chains N Cu). split; apply Permutation_in, Permutation_map; [apply E1|symmetry; apply E1]. }
    assert (Nl : NoDup (map fst l)) by (eapply Permutation_NoDup; [apply Permutation_map; symmetry; apply E1|now apply (members_NoDup es st out chains)]).
    assert (KE : korder kleb l = korder kleb m).
    { apply sorts_unique; [exact Nl|exact P| |]; [destruct Ko as [A B]; split; [intros x y X Y; apply A; now apply Il|intros x y z X Y Z; apply B; now apply Il]|intros x y X Y; apply Ks; now apply Il]. }
    assert (DE : dorder dleb l = dorder dleb m).
    { apply sorts_unique; [exact Nl|exact P| |]; [destruct Do as [A B]; split; [intros x y X Y; apply A; now apply Il|intros x y z X Y Z; apply B; now apply Il]|intros x y X Y; apply Ds; now apply Il]. }
    destruct l as [|a l0] eqn:El.
    - apply Permutation_nil in P. now rewrite P.
    - destruct m as [|b m0]; [symmetry in P; now apply Permutation_nil in P|]. rewrite KE. unfold dlist. now rewrite DE.
  Qed.

  (** A tailoring that says what DUCET says is minimised to nothing. *)
  Theorem C76_all_agree : forall enum es es', NoDup (dkeys es) -> (forall l, Permutation (enum l) l) -> (forall x, is_item es x -> plain x) ->
    (forall k e, dget streq es k = Some e -> letter es k /\ 1 <= t_level e <= 4) ->
    orders (is_item es) dleb -> strict (is_item es) dleb ->
    (forall x y, is_item es x -> is_item es y -> kleb x y = dleb x y) ->
    (forall x e, dget streq es x = Some e -> (forall y, is_item es y -> dleb x y = true) -> t_level e = 1) ->
    (forall p x, is_item es p -> is_item es x -> p <> x -> dleb p x = true -> (forall y, is_item es y -> dleb y p = true \/ dleb x y = true) ->
       dlev p x = match dget streq es x with Some e => Z.of_nat (t_level e) | None => 1%Z end) ->
    minimise kleb dleb dlev enum (get_opcodes streq) es = Ok es' -> es' = [].
  Proof.
    intros enum es es' N E1 Pl Al Do Ds Eq First Next H. unfold minimise in H. destruct (chain_up es) as [[[st out] chains]|] eqn:Cu; cbn [bind] in H; [|discriminate].
    apply chain_up_ok in Cu; [|exact N]. set (l := enum (members chains)) in *.
    assert (Il : forall x, In x (map fst l) <-> is_item es x).
    { intros x. rewrite <- (items es st out chains N Cu). split; apply Permutation_in, Permutation_map; [apply E1|symmetry; apply E1]. }
    assert (Nl : NoDup (map fst l)) by (eapply Permutation_NoDup; [apply Permutation_map; symmetry; apply E1|now apply (members_NoDup es st out chains)]).
    assert (Ol : orders (fun x => In x (map fst l)) dleb) by (destruct Do as [A B]; split; [intros x y X Y; apply A; now apply Il|intros x y z X Y Z; apply B; now apply Il]).
    assert (KD : korder kleb l = dorder dleb l).
    { unfold korder, dorder. assert (G : forall m, incl m l -> isort (fun x y => kleb (fst x) (fst y)) m = isort (fun x y => dleb (fst x) (fst y)) m); [|apply G, incl_refl].
      assert (Ins : forall x m, In x l -> incl m l -> insert (fun x y => kleb (fst x) (fst y)) x m = insert (fun x y => dleb (fst x) (fst y)) x m).
      { intros x m X. induction m as [|y m IH]; intros M; [reflexivity|]. cbn. rewrite Eq by (apply Il, in_map; [exact X || apply M; now left]). rewrite IH; [reflexivity|]. intros z Z. apply M. now right. }
      induction m as [|x m IH]; intros M; [reflexivity|]. cbn. rewrite IH by (intros z Z; apply M; now right). apply Ins; [apply M; now left|]. intros z Z. apply in_isort in Z. apply M. now right. }
    assert (Ho : out = []).
    { destruct Cu as (_ & -> & _). replace (filter (fun p => special (fst p) (snd p)) es) with (@nil (pystr * tel)); [reflexivity|]. symmetry.
      destruct (filter (fun p => special (fst p) (snd p)) es) as [|[k e] f] eqn:F; [reflexivity|]. exfalso.
      assert (I : In (k, e) (filter (fun p => special (fst p) (snd p)) es)) by (rewrite F; now left). apply filter_In in I. destruct I as [I Sp]. cbn [fst snd] in Sp.
      apply (dget_NoDup_In streq streq_spec) in I; [|exact N]. destruct (Al k e I) as [(e' & E & B) _]. replace e' with e in * by congruence. apply special_iff in B. congruence. }
    assert (Hm : forall x, In x l -> (exists k e, x = (k, Some e) /\ dget streq es k = Some e) \/ (exists h, x = (h, None) /\ dget streq es h = None)).
    { intros x X. apply (Permutation_in _ (E1 _)) in X. apply (in_members es st out chains N Cu) in X. destruct X as [(k & e & A & B & _)|(h & A & B & _)]; [left|right]; eauto. }
    destruct l as [|a l'] eqn:El.
    - injection H as <-. destruct es as [|[k e] es0]; [reflexivity|]. exfalso. assert (I : is_item ((k, e) :: es0) k).
      { left. apply (Al k e). cbn. now rewrite streq_refl. }
      apply Il in I. exact I.
    - rewrite <- El in *. clear El a l'. injection H as <-. rewrite KD.
      assert (Sd : StronglySorted (fun x y => dleb (fst x) (fst y) = true) (dorder dleb l)) by now apply isort_sorted_on.
      assert (Id : forall x, In x (dorder dleb l) <-> In x l) by (intros x; apply in_isort).
      assert (Rf : forall x, In x l -> dleb (fst x) (fst x) = true) by (intros x X; destruct (proj1 Ol (fst x) (fst x)); try assumption; now apply in_map).
      assert (Nd : NoDup (map fst (dorder dleb l))) by (eapply Permutation_NoDup; [apply Permutation_map, isort_perm|exact Nl]).
      assert (Lab : forall rest pre p, dorder dleb l = pre ++ p :: rest -> dlabels dlev (fst p) rest = map klabel rest).
      { induction rest as [|x rest IH]; intros pre p E; [reflexivity|]. cbn [dlabels map]. f_equal; [|apply (IH (pre ++ [p])); rewrite <- app_assoc; exact E].
        rewrite E in Sd. destruct (sorted_adjacent _ _ _ _ _ Sd) as [A B]. rewrite <- E in B.
        assert (Ip : In p l) by (apply Id; rewrite E; apply in_or_app; right; now left). assert (Ix : In x l) by (apply Id; rewrite E; apply in_or_app; right; right; now left).
        assert (Npx : fst p <> fst x).
        { intros X. rewrite E, map_app in Nd. cbn [map] in Nd. apply NoDup_remove_2 in Nd. apply Nd, in_or_app. right. left. now symmetry. }
        unfold klabel. f_equal. rewrite (Next (fst p) (fst x)); [|apply Il; now apply in_map|apply Il; now apply in_map|exact Npx|exact A|].
        - destruct (Hm x Ix) as [(k & e & -> & Ek)|(h & -> & Eh)]; cbn [fst snd]; [rewrite Ek|now rewrite Eh]. unfold marksZ.
          destruct (Z.ltb_spec (Z.of_nat (t_level e)) 0); [lia|]. now rewrite Nat2Z.id.
        - intros y Y. apply Il, in_map_iff in Y. destruct Y as (z & <- & Z). destruct (B z (proj2 (Id z) Z)) as [X|[->|[->|X]]]; auto. }
      assert (DL : dlist dleb dlev l = map klabel (dorder dleb l)).
      { unfold dlist. destruct (dorder dleb l) as [|x rest] eqn:E; [reflexivity|]. cbn [map]. f_equal; [|now apply (Lab rest [])].
        assert (Ix : In x l) by (apply Id; now left). unfold klabel. f_equal. destruct (Hm x Ix) as [(k & e & -> & Ek)|(h & -> & Eh)]; cbn [fst snd]; [|reflexivity].
        rewrite (First k e Ek); [reflexivity|]. intros y Y. apply Il, in_map_iff in Y. destruct Y as (z & <- & Z). apply Id in Z. inversion Sd as [|? ? _ F]; subst.
        destruct Z as [<-|Z]; [now apply (Rf (k, Some e))|]. rewrite Forall_forall in F. exact (F _ Z). }
      assert (Dn : dorder dleb l = [] -> es = []).
      { intros X. destruct es as [|[k e] es0]; [reflexivity|]. exfalso. assert (I : is_item ((k, e) :: es0) k).
        { left. apply (Al k e). cbn. now rewrite streq_refl. }
        apply Il, in_map_iff in I. destruct I as (z & _ & Z). apply Id in Z. now rewrite X in Z. }
      assert (NL : NoDup (map klabel (dorder dleb l))).
      { assert (G : forall m, incl m l -> NoDup (map fst m) -> NoDup (map klabel m)); [|apply G; [intros x X; now apply Id|exact Nd]].
        induction m as [|x m IH]; intros M Nm; [constructor|]. cbn [map] in *. inversion Nm as [|? ? N1 N2]; subst. constructor; [|apply IH; [intros z Z; apply M; now right|exact N2]].
        intros I. apply in_map_iff in I. destruct I as (z & E & Z). apply N1. assert (Kx : forall y, exists n, klabel y = fst y ++ gts n) by (intros y; unfold klabel; destruct (snd y); [rewrite marks_gts; now eexists|now exists 1]).
        destruct (Kx x) as [n Ex], (Kx z) as [n' Ez]. rewrite Ex, Ez in E. apply plain_inj in E; [|apply Pl, Il, in_map, M; now right|apply Pl, Il, in_map, M; now left]. destruct E as [<- _]. now apply in_map. }
      rewrite DL. destruct (dorder dleb l) as [|d0 ds] eqn:ED; [rewrite (Dn eq_refl); reflexivity|].
      rewrite (get_opcodes_same streq streq_spec (map klabel (d0 :: ds)) NL) by (cbn; discriminate). cbn [flat_map op_items o_tag app]. rewrite Ho. cbn [keeps flat_map app].
      clear. induction es as [|p es IH]; [reflexivity|exact IH].
  Qed.
End More.

(** ** A tailoring that meets the hypotheses: [&a < c < b < d], which is minimised to [&a < c] *)
Definition ex_ducet : list (pystr * list (N * N * N)) :=
  [(lit "a", [(10, 32, 2)]%N); (lit "b", [(20, 32, 2)]%N); (lit "c", [(30, 32, 2)]%N); (lit "d", [(40, 32, 2)]%N); (lit "h", [(80, 32, 2)]%N)].
Definition ex_el (b : pystr) (l o : nat) : tel := TEl b l 0 [o; 1] [] None None.
Definition ex_tailor : elts := [(lit "c", ex_el (lit "a") 1 1); (lit "b", ex_el (lit "c") 1 2); (lit "d", ex_el (lit "b") 1 3)].
Definition ex_state := match setSortKeysQ (ducetQ ex_ducet) false 10 (TSt ex_tailor [] false) with Ok st => st | Raise _ => TSt [] [] false end.
Definition ex_kleb (x y : pystr) : bool := lebQ (sortKeyQ (ducetQ ex_ducet) ex_state x) (sortKeyQ (ducetQ ex_ducet) ex_state y).
Definition ex_dleb (x y : pystr) : bool := lebQ (dkeyQ (ducetQ ex_ducet) x) (dkeyQ (ducetQ ex_ducet) y).
Definition ex_dlev : pystr -> pystr -> Z := dlevQ (ducetQ ex_ducet).
Definition same_tail (l : elts) : list (pystr * pystr * nat) := map (fun p => (fst p, t_base (snd p), t_level (snd p))) l.

Definition orders_b (l : list pystr) (leb : pystr -> pystr -> bool) : bool :=
  forallb (fun x => forallb (fun y => (leb x y || leb y x) && forallb (fun z => implb (leb x y && leb y z) (leb x z)) l)%bool l) l.
Lemma orders_b_ok (P : pystr -> Prop) l leb : (forall x, P x -> In x l) -> orders_b l leb = true -> orders P leb.
Proof.
  intros I H. unfold orders_b in H. assert (G : forall x y, P x -> P y -> ((leb x y || leb y x) && forallb (fun z => implb (leb x y && leb y z) (leb x z)) l)%bool = true).
  { intros x y X Y. rewrite forallb_forall in H. specialize (H x (I x X)). rewrite forallb_forall in H. exact (H y (I y Y)). }
  split.
  - intros x y X Y. specialize (G x y X Y). apply andb_true_iff in G. apply orb_true_iff. apply G.
  - intros x y z X Y Z A B. specialize (G x y X Y). apply andb_true_iff in G. destruct G as [_ G]. rewrite forallb_forall in G. specialize (G z (I z Z)). rewrite A, B in G. exact G.
Qed.
Definition ex_items : list pystr := [lit "a"; lit "b"; lit "c"; lit "d"].
Lemma ex_items_ok x : is_item (ts_elts ex_state) x -> In x ex_items.
Proof.
  intros I. destruct (chain_up (ts_elts ex_state)) as [[[st out] chains]|] eqn:Cu; [|vm_compute in Cu; discriminate].
  assert (N : NoDup (dkeys (ts_elts ex_state))) by (vm_compute; repeat constructor; cbn; intuition discriminate).
  pose proof (chain_up_ok _ _ _ _ N Cu) as C. apply (items _ _ _ _ N C) in I. vm_compute in Cu. injection Cu as <- <- <-. vm_compute in I. vm_compute. tauto.
Qed.
Example C76_ex : exists es', minimise ex_kleb ex_dleb ex_dlev (fun l => l) (get_opcodes streq) (ts_elts ex_state) = Ok es' /\ same_tail es' = [(lit "c", lit "a", 1)] /\
  NoDup (dkeys (ts_elts ex_state)) /\ (forall k e, dget streq (ts_elts ex_state) k = Some e -> 1 <= t_level e <= 4) /\
  (forall x, is_item (ts_elts ex_state) x -> plain x) /\
  orders (is_item (ts_elts ex_state)) ex_kleb /\ orders (is_item (ts_elts ex_state)) ex_dleb /\
  (forall x y, is_item (ts_elts ex_state) x -> is_item (ts_elts ex_state) y -> ex_dleb x y = true -> (1 <= ex_dlev x y <= 4)%Z) /\
  (forall a b, ops_ok streq a b 0 0 (get_opcodes streq a b)).
Proof.
  eexists. split; [vm_compute; reflexivity|]. split; [vm_compute; reflexivity|].
  split; [vm_compute; repeat constructor; cbn; intuition discriminate|].
  split.
  { intros k e E. apply (dget_In streq streq_spec) in E. assert (F : forallb (fun p => (1 <=? t_level (snd p)) && (t_level (snd p) <=? 4))%bool (ts_elts ex_state) = true) by (vm_compute; reflexivity).
    rewrite forallb_forall in F. specialize (F _ E). cbn [snd] in F. apply andb_true_iff in F. destruct F as [A B]. apply Nat.leb_le in A, B. lia. }
  split.
  { intros x I. apply ex_items_ok in I. cbn in I. destruct I as [<-|[<-|[<-|[<-|[]]]]]; (split; [discriminate|]); intros s E; destruct s as [|c [|? ?]]; try discriminate; reflexivity. }
  split; [apply (orders_b_ok _ ex_items); [apply ex_items_ok|vm_compute; reflexivity]|].
  split; [apply (orders_b_ok _ ex_items); [apply ex_items_ok|vm_compute; reflexivity]|].
  split.
  { intros x y X Y. apply ex_items_ok in X. apply ex_items_ok in Y.
    assert (F : forallb (fun x => forallb (fun y => implb (ex_dleb x y) ((1 <=? ex_dlev x y)%Z && (ex_dlev x y <=? 4)%Z)) ex_items) ex_items = true).
    { vm_compute. reflexivity. }
    rewrite forallb_forall in F. specialize (F x X). rewrite forallb_forall in F. specialize (F y Y). intros L. rewrite L in F. cbn [implb] in F. lia. }
  intros a b. apply get_opcodes_ok.
Qed.
Example C76_ends_ex : forall k e, dget streq (ts_elts ex_state) k = Some e -> dget streq (ts_elts ex_state) (t_base e) <> None ->
  (fun k => match k with [c] => if N.eqb c 100 then 3 else if N.eqb c 98 then 2 else 1 | _ => 0 end) (t_base e) <
  (fun k => match k with [c] => if N.eqb c 100 then 3 else if N.eqb c 98 then 2 else 1 | _ => 0 end) k /\ t_level e <= 3.
Proof.
  intros k e E. apply (dget_In streq streq_spec) in E. vm_compute in E.
  destruct E as [E|[E|[E|[]]]]; injection E as <- <-; vm_compute; intros X; split; lia.
Qed.

(** [&a < b < c < d] says what DUCET says *)
Definition ex_same : elts := [(lit "b", ex_el (lit "a") 1 1); (lit "c", ex_el (lit "b") 1 2); (lit "d", ex_el (lit "c") 1 3)].
Lemma ex_same_items x : is_item ex_same x -> In x ex_items.
Proof.
  intros I. destruct (chain_up ex_same) as [[[st out] chains]|] eqn:Cu; [|vm_compute in Cu; discriminate].
  assert (N : NoDup (dkeys ex_same)) by (vm_compute; repeat constructor; cbn; intuition discriminate).
  pose proof (chain_up_ok _ _ _ _ N Cu) as C. apply (items _ _ _ _ N C) in I. vm_compute in Cu. injection Cu as <- <- <-. vm_compute in I. vm_compute. tauto.
Qed.
Lemma ex_items_same x : In x ex_items -> is_item ex_same x.
Proof.
  intros I. destruct (chain_up ex_same) as [[[st out] chains]|] eqn:Cu; [|vm_compute in Cu; discriminate].
  assert (N : NoDup (dkeys ex_same)) by (vm_compute; repeat constructor; cbn; intuition discriminate).
  pose proof (chain_up_ok _ _ _ _ N Cu) as C. apply (items _ _ _ _ N C). vm_compute in Cu. injection Cu as <- <- <-. vm_compute in I. vm_compute. tauto.
Qed.
Example C76_all_agree_ex :
  NoDup (dkeys ex_same) /\ (forall x, is_item ex_same x -> plain x) /\ (forall k e, dget streq ex_same k = Some e -> letter ex_same k /\ 1 <= t_level e <= 4) /\
  orders (is_item ex_same) ex_dleb /\ strict (is_item ex_same) ex_dleb /\
  (forall x e, dget streq ex_same x = Some e -> (forall y, is_item ex_same y -> ex_dleb x y = true) -> t_level e = 1) /\
  (forall p x, is_item ex_same p -> is_item ex_same x -> p <> x -> ex_dleb p x = true -> (forall y, is_item ex_same y -> ex_dleb y p = true \/ ex_dleb x y = true) ->
     ex_dlev p x = match dget streq ex_same x with Some e => Z.of_nat (t_level e) | None => 1%Z end) /\
  minimise ex_dleb ex_dleb ex_dlev (fun l => l) (get_opcodes streq) ex_same = Ok [].
Proof.
  split; [vm_compute; repeat constructor; cbn; intuition discriminate|].
  split. { intros x I. apply ex_same_items in I. cbn in I. destruct I as [<-|[<-|[<-|[<-|[]]]]]; (split; [discriminate|]); intros s E; destruct s as [|c [|? ?]]; try discriminate; reflexivity. }
  split. { intros k e E. split; [exists e; split; [exact E|]|]; apply (dget_In streq streq_spec) in E; vm_compute in E; destruct E as [E|[E|[E|[]]]]; injection E as <- <-; cbn; split; auto; lia. }
  split; [apply (orders_b_ok _ ex_items); [apply ex_same_items|vm_compute; reflexivity]|].
  split.
  { intros x y X Y. apply ex_same_items in X. apply ex_same_items in Y.
    assert (F : forallb (fun x => forallb (fun y => implb (ex_dleb x y) (implb (ex_dleb y x) (streq x y))) ex_items) ex_items = true) by (vm_compute; reflexivity).
    rewrite forallb_forall in F. specialize (F x X). rewrite forallb_forall in F. specialize (F y Y). intros A B. rewrite A, B in F. now apply streq_true in F. }
  split. { intros x e E _. apply (dget_In streq streq_spec) in E; vm_compute in E; destruct E as [E|[E|[E|[]]]]; injection E as <- <-; reflexivity. }
  split.
  { intros p x X Y Nq L B. apply ex_same_items in X. pose proof (ex_same_items _ Y) as Y'.
    assert (F : forallb (fun p => forallb (fun x => implb (negb (streq p x)) (implb (ex_dleb p x) (Z.eqb (ex_dlev p x) match dget streq ex_same x with Some e => Z.of_nat (t_level e) | None => 1%Z end))) ex_items) ex_items = true) by (vm_compute; reflexivity).
    rewrite forallb_forall in F. specialize (F p X). rewrite forallb_forall in F. specialize (F x Y'). rewrite L in F. destruct (streq_spec p x); [contradiction|]. cbn in F. now apply Z.eqb_eq in F. }
  vm_compute. reflexivity.
Qed.

(** ** What it does not do *)
(** whether [x] is sorted at or before [y] when the keys are set for the tailoring [es] *)
Definition before (d : list (pystr * list (N * N * N))) (es : elts) (x y : pystr) : option bool :=
  match setSortKeysQ (ducetQ d) false 10 (TSt es [] false) with
  | Ok st => match sortKeyQ (ducetQ d) st x, sortKeyQ (ducetQ d) st y with Ok a, Ok b => Some (lebQ (Ok a) (Ok b)) | _, _ => None end
  | Raise _ => None
  end.
(** The order is not kept: [&h < b < c < d] is minimised to nothing, though it moves b, c and d after h. *)
Theorem C76_order_refuted : ~ forall d es es' x y, minimiseQ d (fun l => l) 10 es = Ok es' -> before d es x y = Some true -> before d es y x = Some false -> before d es' x y = Some true.
Proof.
  intros H. assert (X : before ex_ducet [] (lit "h") (lit "b") = Some true); [|vm_compute in X; discriminate].
  apply (H ex_ducet [(lit "b", ex_el (lit "h") 1 1); (lit "c", ex_el (lit "b") 1 2); (lit "d", ex_el (lit "c") 1 3)]); vm_compute; reflexivity.
Qed.
(** ... nor towards characters that the tailoring does not name: with [&a < c] the letter b comes after c, but that is dropped too. *)
Theorem C76_gap_refuted : ~ forall d es es' x y, (forall k, In k (dkeys es) -> before d [] (lit "a") k = Some true) -> minimiseQ d (fun l => l) 10 es = Ok es' ->
  before d es x y = Some true -> before d es y x = Some false -> before d es' x y = Some true.
Proof.
  intros H. assert (X : before ex_ducet [] (lit "c") (lit "b") = Some true); [|vm_compute in X; discriminate].
  apply (H ex_ducet [(lit "c", ex_el (lit "a") 1 1)]); try (vm_compute; reflexivity). intros k [<-|[]]. vm_compute. reflexivity.
Qed.
(** With [&a < c &a < d] the two have the same key, and what is left depends on the order in which a set is enumerated. *)
Theorem C76_hash_refuted : ~ forall d es enum, (forall l, Permutation (enum l) l) -> minimiseQ d enum 10 es = minimiseQ d (fun l => l) 10 es.
Proof.
  intros H. specialize (H ex_ducet [(lit "c", ex_el (lit "a") 1 1); (lit "d", ex_el (lit "a") 1 2)] (@rev _) (fun l => Permutation_sym (Permutation_rev l))).
  vm_compute in H. discriminate.
Qed.
(** [&a < b = c] raises *)
Theorem C76_equal_raises : exists d es, minimiseQ d (fun l => l) 10 es = Raise IndexError /\ same_tail es = [(lit "b", lit "a", 1); (lit "c", lit "b", 4)].
Proof. exists ex_ducet, [(lit "b", ex_el (lit "a") 1 1); (lit "c", ex_el (lit "b") 4 2)]. split; vm_compute; reflexivity. Qed.
