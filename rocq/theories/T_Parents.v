(** C38: the search for the parents of a language tag. *)
From Coq Require Import String Sorted.
From Verif Require Import Py PyFacts M_Parents.
Local Open Scope list_scope.
Local Open Scope nat_scope.

(** * Specification *)

(** a tag cut before one of its hyphens *)
Definition cut (g tag : pystr) : Prop := exists rest, tag = g ++ 45%N :: rest.
(** all of them, shortest first *)
Fixpoint cuts (s : pystr) : list pystr :=
  match s with
  | [] => []
  | c :: s' => let r := map (cons c) (cuts s') in if N.eqb c 45 then [] :: r else r
  end.
(** [a] without its private use part *)
Definition public_part (a b : pystr) : Prop :=
  (exists c p, c <> [] /\ a = c ++ lit "-x-" ++ p /\ b = c /\ forall u v, lit "-x-" ++ p = u ++ lit "-x-" ++ v -> u = []) \/
  (b = a /\ forall c p, a = c ++ lit "-x-" ++ p -> c = []).
Definition no_leading_hyphen (s : pystr) : Prop := forall s', s <> 45%N :: s'.
Definition shorter (a b : pystr) : Prop := List.length b < List.length a.

Lemma cuts_spec s g : In g (cuts s) <-> cut g s.
Proof.
  revert g; induction s as [|c s IH]; intros g; cbn [cuts].
  - split; [intros []|intros (r & E); destruct g; discriminate].
  - assert (M : In g (map (cons c) (cuts s)) <-> exists g', g = c :: g' /\ cut g' s).
    { rewrite in_map_iff. split; [intros (x & <- & H); exists x; rewrite <- IH; auto|].
      intros (x & -> & H). exists x. rewrite IH. auto. }
    destruct (N.eqb_spec c 45) as [->|Nc].
    + cbn [In]. rewrite M. split.
      * intros [<-|(g' & -> & r & ->)]; [exists s; reflexivity|exists r; reflexivity].
      * intros (r & E). destruct g as [|x g]; [left; reflexivity|]. right. cbn [app] in E. injection E as <- ->.
        exists g. split; [reflexivity|]. exists r. reflexivity.
    + rewrite M. split.
      * intros (g' & -> & r & ->). exists r. reflexivity.
      * intros (r & E). destruct g as [|x g]; cbn [app] in E; [congruence|]. injection E as -> ->.
        exists g. split; [reflexivity|]. exists r. reflexivity.
Qed.
Lemma cuts_sorted s : StronglySorted (fun a b => shorter b a) (cuts s).
Proof.
  induction s as [|c s IH]; cbn [cuts]; [constructor|].
  assert (G : StronglySorted (fun a b => shorter b a) (map (cons c) (cuts s))).
  { induction IH as [|x l Hl IHl Hx]; cbn [map]; constructor; [assumption|].
    rewrite Forall_forall in *. intros y Hy. apply in_map_iff in Hy. destruct Hy as (z & <- & Hz).
    specialize (Hx z Hz). unfold shorter in *. cbn [List.length]. lia. }
  destruct (N.eqb c 45); [|assumption]. constructor; [assumption|].
  rewrite Forall_forall. intros y Hy. apply in_map_iff in Hy. destruct Hy as (z & <- & Hz). unfold shorter. cbn. lia.
Qed.
Lemma sorted_rev {A} (R : A -> A -> Prop) l : StronglySorted R l -> StronglySorted (fun a b => R b a) (rev l).
Proof.
  intros H; induction H as [|x l H IH Hx]; cbn [rev]; [constructor|].
  assert (G : forall a, StronglySorted (fun a b => R b a) a -> (forall y, In y a -> R x y) -> StronglySorted (fun a b => R b a) (a ++ [x])).
  { intros a Ha; induction Ha as [|y a Ha IHa Hy]; intros Hr; cbn [app]; [repeat constructor|].
    constructor; [apply IHa; intros z Hz; apply Hr; right; assumption|].
    apply Forall_app. split; [assumption|]. constructor; [apply Hr; left; reflexivity|constructor]. }
  apply G; [assumption|]. intros y Hy. rewrite Forall_forall in Hx. apply Hx. apply in_rev. assumption.
Qed.

(** the cuts of a tag, longest first *)
Definition chain (s : pystr) : list pystr := rev (cuts s).
Theorem chain_spec s : (forall g, In g (chain s) <-> cut g s) /\ StronglySorted shorter (chain s).
Proof.
  split.
  - intros g. unfold chain. rewrite <- in_rev. apply cuts_spec.
  - apply (sorted_rev (fun a b => shorter b a)). apply cuts_sorted.
Qed.

(** * Shortening a tag *)
Lemma rfind_hyphen s :
  match rfind (lit "-") s with
  | Some r => cuts s = cuts (firstn r s) ++ [firstn r s] /\ r < List.length s
  | None => cuts s = []
  end.
Proof.
  induction s as [|c s IH]; cbn [rfind cuts]; [reflexivity|].
  destruct (rfind (lit "-") s) as [r|].
  - destruct IH as [E L]. cbn [firstn cuts List.length]. rewrite E, map_app. cbn [map]. split; [|lia].
    destruct (N.eqb c 45); reflexivity.
  - rewrite IH. unfold startswith. cbn [lit strip_prefix String.list_ascii_of_string Ascii.N_of_ascii map].
    rewrite N.eqb_sym. change (N.eqb c _) with (N.eqb c 45). destruct (N.eqb c 45); [|reflexivity].
    destruct s; cbn; split; try reflexivity; lia.
Qed.

Lemma cuts_hyphens s : hyphens s = List.length (cuts s).
Proof.
  unfold hyphens. induction s as [|c s IH]; [reflexivity|]. cbn [count_occ cuts].
  destruct (N.eq_dec c 45) as [->|Nc].
  - cbn [N.eqb Pos.eqb List.length]. rewrite map_length, IH. reflexivity.
  - destruct (N.eqb_spec c 45); [congruence|]. rewrite map_length. assumption.
Qed.

Lemma trim_spec s : no_leading_hyphen s ->
  let (t, more) := trim_tag s in
  (chain s = [] /\ t = s /\ more = false) \/
  (chain s = t :: chain t /\ more = negb (match chain t with [] => true | _ => false end) /\ no_leading_hyphen t /\
   List.length t < List.length s).
Proof.
  intros H. unfold trim_tag. pose proof (rfind_hyphen s) as R. destruct (rfind (lit "-") s) as [r|].
  - destruct R as [R L].
    destruct (Nat.ltb_spec 0 r) as [Hr|Hr].
    + right. unfold chain. rewrite R, rev_app_distr. cbn [rev app]. split; [reflexivity|]. split; [|split].
      * rewrite cuts_hyphens. destruct (cuts (firstn r s)) as [|x l]; [reflexivity|].
        cbn [List.length rev]. destruct (rev l); reflexivity.
      * intros s' E. destruct s as [|c s]; [cbn in L; lia|]. destruct r as [|r]; [lia|]. cbn [firstn] in E.
        injection E as -> _. exact (H s eq_refl).
      * rewrite firstn_length. lia.
    + exfalso. assert (r = 0) by lia. subst r. cbn [firstn cuts app] in R.
      assert (C : cut [] s) by (apply cuts_spec; rewrite R; left; reflexivity).
      destruct C as (rest & E). exact (H rest E).
  - left. unfold chain. rewrite R. split; [reflexivity|]. split; [reflexivity|].
    rewrite cuts_hyphens, R. reflexivity.
Qed.

Lemma startswith_spec p s : startswith p s = true <-> exists t, s = p ++ t.
Proof.
  unfold startswith. revert s; induction p as [|x p IH]; intros s; cbn [strip_prefix app].
  - split; [intros _; eauto|reflexivity].
  - destruct s as [|y s]; [split; [discriminate|intros (t & E); discriminate]|].
    destruct (N.eqb_spec x y) as [->|N1].
    + rewrite IH. split; intros (t & E); exists t; congruence.
    + split; [discriminate|]. intros (t & E). congruence.
Qed.

Lemma rfind_Some p s r : p <> [] -> rfind p s = Some r ->
  exists c t, s = c ++ p ++ t /\ List.length c = r /\ forall u v, p ++ t = u ++ p ++ v -> u = [].
Proof.
  intros Hp; revert r; induction s as [|x s IH]; intros r; cbn [rfind]; [discriminate|].
  destruct (rfind p s) as [i|] eqn:E.
  - intros [= <-]. destruct (IH i eq_refl) as (c & t & -> & L & U). exists (x :: c), t. cbn [app List.length]. auto.
  - destruct (startswith p (x :: s)) eqn:S0; [|discriminate]. intros [= <-].
    apply startswith_spec in S0. destruct S0 as (t & Et). exists [], t. split; [assumption|]. split; [reflexivity|].
    intros u v Eu. destruct u as [|y u]; [reflexivity|]. exfalso. rewrite <- Et in Eu. cbn [app] in Eu. injection Eu as -> Eu.
    clear -E Eu Hp. revert u Eu; induction s as [|z s IH]; intros u Eu.
    + destruct u; [|discriminate]. destruct p; [congruence|discriminate].
    + cbn [rfind] in E. destruct (rfind p s) as [i|] eqn:E2; [discriminate|].
      destruct u as [|w u]; cbn [app] in Eu.
      * assert (startswith p (z :: s) = true) as S1; [|rewrite S1 in E; discriminate].
        apply startswith_spec. exists v. assumption.
      * injection Eu as -> Eu. apply (IH eq_refl u Eu).
Qed.
Lemma rfind_None p s : p <> [] -> rfind p s = None -> forall c t, s <> c ++ p ++ t.
Proof.
  intros Hp; induction s as [|x s IH]; cbn [rfind]; intros E c t Es.
  - destruct c; [destruct p; [congruence|discriminate]|discriminate].
  - destruct (rfind p s); [discriminate|]. destruct c as [|y c]; cbn [app] in Es.
    + assert (startswith p (x :: s) = true) as S1; [|rewrite S1 in E; discriminate].
      apply startswith_spec. exists t. assumption.
    + injection Es as -> Es. exact (IH eq_refl c t Es).
Qed.

(** ** the private use part is what the specification says *)
Theorem remove_private_spec s : public_part s (remove_private s).
Proof.
  unfold remove_private. destruct (rfind (lit "-x-") s) as [r|] eqn:E.
  - apply rfind_Some in E; [|discriminate]. destruct E as (c & t & -> & L & U).
    destruct (Nat.ltb_spec 0 r) as [Hr|Hr].
    + left. exists c, t. split; [destruct c; [cbn in L; lia|discriminate]|]. split; [reflexivity|].
      split; [|assumption]. rewrite <- L, firstn_app, Nat.sub_diag, firstn_O, app_nil_r, firstn_all. reflexivity.
    + right. split; [reflexivity|]. intros c' p E2. destruct c as [|x c]; [|cbn in L; lia]. cbn [app] in E2.
      exact (U c' p E2).
  - right. split; [reflexivity|]. intros c p E2. exfalso. eapply rfind_None; [|exact E|exact E2]. discriminate.
Qed.
Lemma remove_private_cut s : remove_private s = s \/ cut (remove_private s) s.
Proof.
  destruct (remove_private_spec s) as [(c & p & _ & -> & -> & _)|[-> _]]; [right|left; reflexivity].
  exists (tl (lit "-x-") ++ p). reflexivity.
Qed.
Lemma remove_private_lead s : no_leading_hyphen s -> no_leading_hyphen (remove_private s).
Proof.
  intros H. destruct (remove_private_spec s) as [(c & p & Hc & -> & -> & _)|[-> _]]; [|assumption].
  intros s' ->. apply (H (s' ++ lit "-x-" ++ p)). reflexivity.
Qed.

Section Loop.
  Context {T : Type}.
  Variables (lookup : pystr -> bool -> option T) (teq : T -> T -> bool) (tstr : T -> pystr).
  Variables (script region ttag : T -> option pystr) (ttags tvariants : T -> option (list pystr)).
  Variables (sldr : T -> bool) (isfile : pystr -> bool).
  Variables (this_file : pystr) (to_root needs_sldr match_script match_region : bool).
  Hypothesis teq_refl : forall t, teq t t = true.

  Notation loop := (parent_loop lookup teq script region ttag ttags sldr isfile this_file to_root needs_sldr match_script match_region).
  Notation search := (find_parents lookup teq tstr script region ttag ttags tvariants sldr isfile this_file to_root needs_sldr match_script match_region).
  Notation tagset g := (lookup (dash g) false).

  (** the tag sets agree in what was asked for *)
  Definition alike (a b : T) : Prop :=
    (match_script = true \/ match_region = true) /\
    (match_script = true -> exists s, script a = Some s /\ script b = Some s) /\
    (match_region = true -> exists s, region a = Some s /\ region b = Some s).
  (** [c], reached by shortening [p], is a parent in the search that started from [root] *)
  Definition parent (root : option T) (p c : pystr) : Prop :=
    exists t r, tagset c = Some t /\ root = Some r /\
      teq t r = false /\ (forall tp, tagset p = Some tp -> teq t tp = false) /\
      alike t r /\ (needs_sldr = true -> sldr t = true).

  Lemma oeq_refl (a : option T) : oeq teq a a = true.
  Proof. destruct a; cbn; auto. Qed.

  Lemma same_attr_true (f : T -> option pystr) a b : same_attr f a b = Ok true <->
    exists x y s, a = Some x /\ b = Some y /\ f x = Some s /\ f y = Some s.
  Proof.
    unfold same_attr. split.
    - destruct a as [x|]; [|discriminate]. destruct b as [y|]; [|discriminate].
      destruct (f x) as [u|] eqn:Eu; [|discriminate]. destruct (f y) as [v|] eqn:Ev; [|discriminate].
      destruct (streq_spec u v) as [->|]; [|discriminate]. intros _. exists x, y, v. auto.
    - intros (x & y & s & -> & -> & -> & ->). rewrite streq_refl. reflexivity.
  Qed.
  Lemma agrees_true a b : agrees script region match_script match_region a b = Ok true <->
    exists x y, a = Some x /\ b = Some y /\ alike x y.
  Proof.
    unfold agrees, alike. destruct match_region, match_script; cbn [andb negb].
    - split.
      + destruct (same_attr script a b) as [[]|] eqn:E1; cbn [bind]; try discriminate.
        intros E2. apply same_attr_true in E1, E2. destruct E1 as (x & y & s & -> & -> & E1 & E1').
        destruct E2 as (x' & y' & s' & [= <-] & [= <-] & E2 & E2'). exists x, y. split; [reflexivity|]. split; [reflexivity|].
        split; [auto|]. split; intros _; eauto.
      + intros (x & y & -> & -> & _ & Hs & Hr). destruct (Hs eq_refl) as (s & A & B). destruct (Hr eq_refl) as (s' & A' & B').
        assert (same_attr script (Some x) (Some y) = Ok true) as -> by (apply same_attr_true; eauto 8). cbn [bind].
        apply same_attr_true. eauto 8.
    - rewrite same_attr_true. split.
      + intros (x & y & s & -> & -> & A & B). exists x, y. split; [reflexivity|]. split; [reflexivity|]. split; [auto|].
        split; [discriminate|intros _; eauto].
      + intros (x & y & -> & -> & _ & _ & H). destruct (H eq_refl) as (s & A & B). eauto 8.
    - rewrite same_attr_true. split.
      + intros (x & y & s & -> & -> & A & B). exists x, y. split; [reflexivity|]. split; [reflexivity|]. split; [auto|].
        split; [intros _; eauto|discriminate].
      + intros (x & y & -> & -> & _ & H & _). destruct (H eq_refl) as (s & A & B). eauto 8.
    - split; [discriminate|]. intros (x & y & _ & _ & [H|H] & _); discriminate.
  Qed.

  (** the parents met when going from [p] through the tags of a list *)
  Inductive parents_on (root : option T) : pystr -> list pystr -> list pystr -> Prop :=
  | po_nil p : parents_on root p [] []
  | po_take p c l ps : parent root p c -> parents_on root c l ps -> parents_on root p (c :: l) (c :: ps)
  | po_skip p c l ps : ~ parent root p c -> parents_on root c l ps -> parents_on root p (c :: l) ps.

  Lemma step_decide root p c m : agrees script region match_script match_region (tagset c) root = Ok m ->
    (oeq teq (tagset c) root || oeq teq (tagset c) (tagset p))%bool = false ->
    (m && (negb needs_sldr || has_sldr sldr (tagset c)))%bool = true <-> parent root p c.
  Proof.
    intros Hm He. apply orb_false_iff in He. destruct He as [H1 H2]. split.
    - intros H. apply andb_true_iff in H. destruct H as [-> H].
      apply agrees_true in Hm. destruct Hm as (t & r & E1 & E2 & HA). exists t, r.
      split; [assumption|]. split; [assumption|]. rewrite E1, E2 in *. cbn [oeq] in H1. split; [assumption|].
      split; [intros tp Ep; rewrite Ep in H2; exact H2|]. split; [assumption|].
      intros N1. rewrite N1 in H. exact H.
    - intros (t & r & E1 & E2 & _ & _ & HA & HS).
      assert (agrees script region match_script match_region (tagset c) root = Ok true) as E3.
      { apply agrees_true. exists t, r. auto. }
      rewrite E3 in Hm. injection Hm as <-. rewrite E1. cbn [has_sldr andb].
      destruct needs_sldr; [rewrite HS by reflexivity|]; reflexivity.
  Qed.
  Lemma not_parent_same root p c : (oeq teq (tagset c) root || oeq teq (tagset c) (tagset p))%bool = true -> ~ parent root p c.
  Proof.
    intros H (t & r & E1 & E2 & N1 & N2 & _). rewrite E1, E2 in H. apply orb_true_iff in H. destruct H as [H|H].
    - cbn [oeq] in H. congruence.
    - destruct (tagset p) as [tp|]; [|discriminate]. cbn [oeq] in H. rewrite (N2 tp eq_refl) in H. discriminate.
  Qed.

  (** what the loop adds to the path *)
  Definition added (root : option T) (p : pystr) (l path path' : list pystr) : Prop :=
    exists ps k, parents_on root p l ps /\ path' = path ++ firstn k ps /\
      (to_root = true -> List.length ps <= k) /\ (to_root = false -> k <= 1).

  Lemma added_nothing root p l path : to_root = false -> added root p l path path.
  Proof.
    intros H. assert (E : exists ps, parents_on root p l ps).
    { revert p; induction l as [|c l IH]; intros p; [exists []; constructor|].
      destruct (IH c) as (ps & Hps).
      assert (D : parent root p c \/ ~ parent root p c).
      { destruct (oeq teq (tagset c) root || oeq teq (tagset c) (tagset p))%bool eqn:E;
          [right; apply not_parent_same; assumption|].
        destruct (agrees script region match_script match_region (tagset c) root) as [m|e] eqn:Em.
        - destruct (m && (negb needs_sldr || has_sldr sldr (tagset c)))%bool eqn:Es.
          + left. apply (step_decide root p c m Em E). assumption.
          + right. intros HP. apply (step_decide root p c m Em E) in HP. congruence.
        - right. intros (t & r & E1 & E2 & _ & _ & HA & _).
          assert (agrees script region match_script match_region (tagset c) root = Ok true) as E3
            by (apply agrees_true; exists t, r; auto). congruence. }
      destruct D as [D|D]; [exists (c :: ps); constructor; assumption|exists ps; apply po_skip; assumption]. }
    destruct E as (ps & Hps). exists ps, 0. split; [assumption|]. cbn [firstn]. rewrite app_nil_r.
    split; [reflexivity|]. split; [congruence|lia].
  Qed.
  Lemma added_skip root p c l path path' : ~ parent root p c -> added root c l path path' -> added root p (c :: l) path path'.
  Proof. intros H (ps & k & A & B). exists ps, k. split; [apply po_skip; assumption|assumption]. Qed.
  Lemma added_take root p c l path path' : to_root = true -> parent root p c -> added root c l (path ++ [c]) path' ->
    added root p (c :: l) path path'.
  Proof.
    intros Ht H (ps & k & A & -> & B & C). exists (c :: ps), (S k). split; [apply po_take; assumption|].
    cbn [firstn]. rewrite <- app_assoc. split; [reflexivity|]. split; [intros _; cbn [List.length]; specialize (B Ht); lia|congruence].
  Qed.
  Lemma added_last root p c l path : to_root = false -> parent root p c -> added root p (c :: l) path (path ++ [c]).
  Proof.
    intros Ht H. destruct (added_nothing root c l path Ht) as (ps & k & A & _).
    exists (c :: ps), 1. split; [apply po_take; assumption|]. cbn [firstn]. split; [reflexivity|].
    split; [congruence|lia].
  Qed.

  Definition ends_with (l : list pystr) (x : pystr) : Prop := exists l', l = l' ++ [x].

  Lemma loop_stop f rs ran red rt temp path r : loop (S f) rs false ran red rt temp path = Ok r -> r = (rt, red, path).
  Proof. cbn [parent_loop negb]. congruence. Qed.

  Lemma loop_trim fuel rs red rt temp path root red' path' :
    no_leading_hyphen temp -> ends_with path rt ->
    loop fuel rs true true red rt temp path = Ok (root, red', path') ->
    added rs temp (chain temp) path path' /\ ends_with path' root.
  Proof.
    revert red rt temp path; induction fuel as [|fuel IH]; intros red rt temp path Hl He H; [discriminate|].
    cbn [parent_loop negb] in H.
    destruct (mintag_file ttag ttags isfile this_file (tagset temp)) as [r|]; cbn [bind] in H; [|discriminate].
    destruct (r && negb to_root)%bool eqn:Er.
    { injection H as <- <- <-. apply andb_true_iff in Er. destruct Er as [_ Er]. split; [|assumption].
      apply added_nothing. destruct to_root; [discriminate|reflexivity]. }
    pose proof (trim_spec temp Hl) as HT. destruct (trim_tag temp) as [t more].
    destruct HT as [(Hc & -> & ->)|(Hc & Hm & Hl' & _)].
    - rewrite oeq_refl, orb_true_r in H. destruct fuel as [|fuel]; [discriminate|].
      apply loop_stop in H. injection H as -> -> ->. rewrite Hc. split; [|assumption].
      exists [], 0. split; [constructor|]. cbn [firstn List.length]. rewrite app_nil_r. split; [reflexivity|].
      split; intros; lia.
    - rewrite Hc.
      assert (G : forall rt2 path2, ends_with path2 rt2 -> loop fuel rs more true r rt2 t path2 = Ok (root, red', path') ->
                added rs t (chain t) path2 path' /\ ends_with path' root).
      { intros rt2 path2 He2 H2. destruct more; [eapply IH; eassumption|].
        destruct fuel as [|fuel]; [discriminate|]. apply loop_stop in H2. injection H2 as -> -> ->.
        destruct (chain t); [|discriminate]. split; [|assumption].
        exists [], 0. split; [constructor|]. cbn [firstn List.length]. rewrite app_nil_r. split; [reflexivity|].
        split; intros; lia. }
      destruct (oeq teq (tagset t) rs || oeq teq (tagset t) (tagset temp))%bool eqn:Eo.
      + apply G in H; [|assumption]. destruct H as [H1 H2]. split; [|assumption].
        apply added_skip; [apply not_parent_same; assumption|assumption].
      + destruct (agrees script region match_script match_region (tagset t) rs) as [m|] eqn:Em; cbn [bind] in H; [|discriminate].
        pose proof (step_decide rs temp t m Em Eo) as HD.
        destruct (m && (negb needs_sldr || has_sldr sldr (tagset t)))%bool.
        * destruct to_root eqn:Et.
          -- apply G in H; [|exists path; reflexivity]. destruct H as [H1 H2]. split; [|assumption].
             rewrite <- Et in *. apply added_take; [assumption|apply HD; reflexivity|assumption].
          -- injection H as <- <- <-. split; [|exists path; reflexivity]. rewrite <- Et in *.
             apply added_last; [assumption|apply HD; reflexivity].
        * apply G in H; [|assumption]. destruct H as [H1 H2]. split; [|assumption].
          apply added_skip; [|assumption]. intros HP. apply HD in HP. discriminate.
  Qed.

  Lemma loop_first fuel rs rt path root red' path' :
    no_leading_hyphen rt -> ends_with path rt ->
    loop fuel rs true false false rt rt path = Ok (root, red', path') ->
    added rs rt (remove_private rt :: chain (remove_private rt)) path path' /\ ends_with path' root.
  Proof.
    destruct fuel as [|fuel]; intros Hl He H; [discriminate|]. cbn [parent_loop negb] in H.
    pose proof (remove_private_lead rt Hl) as Hl'. set (t := remove_private rt) in *.
    assert (G : forall rt2 path2, ends_with path2 rt2 -> loop fuel rs true true false rt2 t path2 = Ok (root, red', path') ->
                added rs t (chain t) path2 path' /\ ends_with path' root).
    { intros rt2 path2 He2 H2. eapply loop_trim; eassumption. }
    destruct (oeq teq (tagset t) rs || oeq teq (tagset t) (tagset rt))%bool eqn:Eo.
    - apply G in H; [|assumption]. destruct H as [H1 H2]. split; [|assumption].
      apply added_skip; [apply not_parent_same; assumption|assumption].
    - destruct (agrees script region match_script match_region (tagset t) rs) as [m|] eqn:Em; cbn [bind] in H; [|discriminate].
      pose proof (step_decide rs rt t m Em Eo) as HD.
      destruct (m && (negb needs_sldr || has_sldr sldr (tagset t)))%bool.
      + destruct to_root eqn:Et.
        * apply G in H; [|exists path; reflexivity]. destruct H as [H1 H2]. split; [|assumption].
          rewrite <- Et in *. apply added_take; [assumption|apply HD; reflexivity|assumption].
        * injection H as <- <- <-. split; [|exists path; reflexivity]. rewrite <- Et in *.
          apply added_last; [assumption|apply HD; reflexivity].
      + apply G in H; [|assumption]. destruct H as [H1 H2]. split; [|assumption].
        apply added_skip; [|assumption]. intros HP. apply HD in HP. discriminate.
  Qed.

  (** ** C38: the loop ends *)
  Lemma loop_trim_total fuel rs red rt temp path :
    no_leading_hyphen temp -> hyphens temp + 2 <= fuel ->
    loop fuel rs true true red rt temp path <> Raise OutOfFuel.
  Proof.
    revert red rt temp path; induction fuel as [|fuel IH]; intros red rt temp path Hl Hf; [lia|].
    cbn [parent_loop negb].
    assert (HF : mintag_file ttag ttags isfile this_file (tagset temp) <> Raise OutOfFuel).
    { unfold mintag_file.
      assert (HO : forall tags, other_file isfile this_file tags <> Raise OutOfFuel).
      { induction tags as [|m tags IHt]; cbn [other_file]; [discriminate|].
        destruct (streq m this_file); [assumption|]. destruct m; [discriminate|]. destruct (isfile (n :: m)); [discriminate|assumption]. }
      destruct (streq _ this_file); [discriminate|].
      destruct (match tagset temp with Some t => ttags t | None => None end); [apply HO|discriminate]. }
    destruct (mintag_file ttag ttags isfile this_file (tagset temp)) as [r|]; cbn [bind]; [|congruence].
    destruct (r && negb to_root)%bool; [discriminate|].
    pose proof (trim_spec temp Hl) as HT. destruct (trim_tag temp) as [t more].
    destruct HT as [(Hc & -> & ->)|(Hc & Hm & Hl' & _)].
    - rewrite oeq_refl, orb_true_r. destruct fuel; [lia|]. discriminate.
    - assert (Hh : hyphens t + 1 = hyphens temp).
      { rewrite !cuts_hyphens. apply (f_equal (@List.length pystr)) in Hc. unfold chain in Hc. cbn [List.length] in Hc.
        rewrite !rev_length in Hc. lia. }
      assert (G : forall rt2 path2, loop fuel rs more true r rt2 t path2 <> Raise OutOfFuel).
      { intros rt2 path2. destruct more; [apply IH; [assumption|lia]|]. destruct fuel; [lia|discriminate]. }
      destruct (oeq teq (tagset t) rs || oeq teq (tagset t) (tagset temp))%bool; [apply G|].
      assert (HA : agrees script region match_script match_region (tagset t) rs <> Raise OutOfFuel).
      { assert (HSA : forall f a b, same_attr (T:=T) f a b <> Raise OutOfFuel).
        { intros f a b. unfold same_attr. destruct a; [|discriminate]. destruct b; [|discriminate].
          destruct (f t0); [|discriminate]. destruct (f t1); discriminate. }
        unfold agrees. destruct (match_region && negb match_script)%bool; [apply HSA|].
        destruct (match_script && negb match_region)%bool; [apply HSA|].
        destruct (match_region && match_script)%bool; [|discriminate].
        specialize (HSA script (tagset t) rs) as HS1. destruct (same_attr script (tagset t) rs) as [[]|]; cbn [bind]; [apply HSA|discriminate|congruence]. }
      destruct (agrees script region match_script match_region (tagset t) rs) as [m|]; cbn [bind]; [|congruence].
      destruct (m && (negb needs_sldr || has_sldr sldr (tagset t)))%bool; [|apply G].
      destruct to_root; [apply G|discriminate].
  Qed.

  Lemma hyphens_private s : hyphens (remove_private s) <= hyphens s.
  Proof.
    destruct (remove_private_cut s) as [->|(rest & E)]; [lia|]. rewrite E at 2. unfold hyphens. rewrite count_occ_app. lia.
  Qed.

  Lemma loop_total fuel rs rt path : no_leading_hyphen rt -> hyphens rt + 3 <= fuel ->
    loop fuel rs true false false rt rt path <> Raise OutOfFuel.
  Proof.
    intros Hl Hf. destruct fuel as [|fuel]; [lia|]. cbn [parent_loop negb].
    pose proof (remove_private_lead rt Hl) as Hl'. pose proof (hyphens_private rt) as Hh. set (t := remove_private rt) in *.
    assert (G : forall rt2 path2, loop fuel rs true true false rt2 t path2 <> Raise OutOfFuel).
    { intros. apply loop_trim_total; [assumption|lia]. }
    destruct (oeq teq (tagset t) rs || oeq teq (tagset t) (tagset rt))%bool; [apply G|].
    assert (HA : agrees script region match_script match_region (tagset t) rs <> Raise OutOfFuel).
    { assert (HSA : forall f a b, same_attr (T:=T) f a b <> Raise OutOfFuel).
      { intros f a b. unfold same_attr. destruct a; [|discriminate]. destruct b; [|discriminate].
        destruct (f t0); [|discriminate]. destruct (f t1); discriminate. }
      unfold agrees. destruct (match_region && negb match_script)%bool; [apply HSA|].
      destruct (match_script && negb match_region)%bool; [apply HSA|].
      destruct (match_region && match_script)%bool; [|discriminate].
      specialize (HSA script (tagset t) rs) as HS1. destruct (same_attr script (tagset t) rs) as [[]|]; cbn [bind]; [apply HSA|discriminate|congruence]. }
    destruct (agrees script region match_script match_region (tagset t) rs) as [m|]; cbn [bind]; [|congruence].
    destruct (m && (negb needs_sldr || has_sldr sldr (tagset t)))%bool; [|apply G].
    destruct to_root; [apply G|discriminate].
  Qed.

  Hypothesis tstr_lead : forall t, no_leading_hyphen (tstr t).

  Lemma ostr_lead o : no_leading_hyphen (ostr tstr o).
  Proof. destruct o; cbn [ostr]; [apply tstr_lead|]. intros s' E. discriminate. Qed.

  (** the number of rounds is bounded by the hyphens of the tag *)
  Theorem C38_terminates h fuel ltstr :
    (forall t, hyphens (tstr t) <= h) -> h + 3 <= fuel -> search fuel ltstr <> Raise OutOfFuel.
  Proof.
    intros Hh Hf. unfold find_parents. destruct (start_set _ _ _ _ _ _ _) as [ts|r]; [|discriminate].
    pose proof (loop_total fuel ts (ostr tstr ts) [ostr tstr ts] (ostr_lead ts)) as HL.
    assert (hyphens (ostr tstr ts) + 3 <= fuel).
    { destruct ts as [t|]; cbn [ostr]; [specialize (Hh t); lia|]. cbn. lia. }
    specialize (HL H). destruct (loop fuel ts true false false _ _ _) as [[[a b] c]|]; cbn [bind]; [discriminate|congruence].
  Qed.

  (** ** C38: the path is the starting tag and the parents met by shortening it *)
  Theorem C38_path fuel ltstr is_root root rootset path :
    search fuel ltstr = Ok (is_root, root, rootset, path) ->
    exists start ps k,
      path = start :: firstn k ps /\ ends_with path root /\
      (to_root = false -> k <= 1) /\
      ((ps = [] /\ k = 0 /\ (to_root = true -> start = [])) \/
       exists ts, start = ostr tstr ts /\
         parents_on ts start (remove_private start :: chain (remove_private start)) ps /\
         (to_root = true -> List.length ps <= k)).
  Proof.
    unfold find_parents. destruct (start_set _ _ _ _ _ _ _) as [ts|r] eqn:Es.
    - destruct (loop fuel ts true false false _ _ _) as [[[a b] c]|] eqn:EL; cbn [bind]; [|discriminate].
      intros [= <- <- <- <-].
      apply loop_first in EL; [|apply ostr_lead|exists []; reflexivity]. destruct EL as [(ps & k & A & -> & B & C) E].
      exists (ostr tstr ts), ps, k. split; [reflexivity|]. split; [assumption|]. split; [assumption|].
      right. exists ts. auto.
    - intros [= ->].
      assert (HR : path = [root] /\ (to_root = true -> root = [])).
      { unfold start_set in Es. destruct (lookup (dash ltstr) true); [discriminate|].
        destruct (rfind (lit "-") ltstr) as [i|]; [|injection Es as <- <- <- <-; split; reflexivity].
        assert (HA : forall t, (if (streq (skipn (S i) ltstr) (lit "001") && negb to_root)%bool
                       then inr (false, ostr tstr t, t, [ostr tstr t])
                       else match t with
                            | Some x => match tvariants x with
                                | Some vs => if (existsb (streq (skipn (S i) ltstr)) vs && negb to_root && (negb needs_sldr || has_sldr sldr t))%bool
                                             then inr (false, ostr tstr t, t, [ostr tstr t]) else inl t
                                | None => inl t end
                            | None => inl t end) = inr (is_root, root, rootset, path) -> path = [root] /\ (to_root = true -> root = [])).
        { intros t. destruct (streq _ _ && _)%bool eqn:Eb.
          { apply andb_true_iff in Eb. destruct Eb as [_ Eb]. intros [= _ <- _ <-]. split; [reflexivity|].
            intros Ht. rewrite Ht in Eb. discriminate. }
          destruct t as [x|]; [|discriminate]. destruct (tvariants x); [|discriminate].
          destruct (existsb _ _ && _ && _)%bool eqn:Ec; [|discriminate].
          apply andb_true_iff in Ec. destruct Ec as [Ec _]. apply andb_true_iff in Ec. destruct Ec as [_ Ec].
          intros [= _ <- _ <-]. split; [reflexivity|]. intros Ht. rewrite Ht in Ec. discriminate. }
        destruct (lookup (dash (firstn i ltstr)) true) as [t|]; [apply (HA (Some t)); assumption|].
        destruct (negb to_root && _)%bool eqn:Ed; [|eapply HA; eassumption].
        apply andb_true_iff in Ed. destruct Ed as [Ed _].
        injection Es as _ <- _ <-. split; [reflexivity|]. intros Ht. rewrite Ht in Ed. discriminate. }
      destruct HR as [-> HR]. exists root, [], 0. split; [reflexivity|]. split; [exists []; reflexivity|]. split; [lia|]. left. auto.
  Qed.

  Lemma parents_on_sub root p l ps : parents_on root p l ps ->
    (forall c, In c ps -> In c l /\ exists p', parent root p' c) /\
    (StronglySorted shorter l -> StronglySorted shorter ps).
  Proof.
    intros H; induction H as [p|p c l ps HP H [IH1 IH2]|p c l ps HP H [IH1 IH2]].
    - split; [intros c []|auto].
    - split.
      + intros x [<-|Hx]; [split; [left; reflexivity|exists p; assumption]|].
        destruct (IH1 x Hx) as [A B]. split; [right; assumption|assumption].
      + intros HS. inversion HS as [|? ? HS' HF]; subst. constructor; [auto|].
        rewrite Forall_forall in *. intros x Hx. apply HF. apply IH1. assumption.
    - split.
      + intros x Hx. destruct (IH1 x Hx) as [A B]. split; [right; assumption|assumption].
      + intros HS. inversion HS; subst. auto.
  Qed.

  Lemma cut_trans a b c : cut a b -> cut b c -> cut a c.
  Proof. intros (r & ->) (r' & ->). exists (r ++ 45%N :: r'). rewrite <- app_assoc. reflexivity. Qed.
  Lemma cut_shorter a b : cut a b -> shorter b a.
  Proof. intros (r & ->). unfold shorter. rewrite app_length. cbn. lia. Qed.

  Lemma parents_on_start ts s ps :
    parents_on ts s (remove_private s :: chain (remove_private s)) ps ->
    Forall (fun c => cut c s) ps /\ StronglySorted shorter ps.
  Proof.
    intros H. destruct (chain_spec (remove_private s)) as [C1 C2].
    assert (Hc : forall c, In c (chain (remove_private s)) -> cut c s).
    { intros c Hc. apply C1 in Hc. destruct (remove_private_cut s) as [E|E]; [rewrite E in Hc; assumption|].
      eapply cut_trans; eassumption. }
    inversion H as [|p c l ps' HP H'|p c l ps' HP H']; subst.
    - assert (HC : cut (remove_private s) s).
      { destruct (remove_private_cut s) as [E|E]; [|assumption]. exfalso. rewrite E in HP.
        revert HP. apply not_parent_same. rewrite oeq_refl, orb_true_r. reflexivity. }
      destruct (parents_on_sub _ _ _ _ H') as [A B]. split.
      + constructor; [assumption|]. rewrite Forall_forall. intros c Hin. apply Hc. apply A. assumption.
      + constructor; [auto|]. rewrite Forall_forall. intros c Hin. apply cut_shorter. apply C1. apply A. assumption.
    - destruct (parents_on_sub _ _ _ _ H') as [A B]. split; [|auto].
      rewrite Forall_forall. intros c Hin. apply Hc. apply A. assumption.
  Qed.

  Lemma firstn_sorted {A} (R : A -> A -> Prop) k l : StronglySorted R l -> StronglySorted R (firstn k l).
  Proof.
    intros H; revert k; induction H as [|x l H IH Hx]; intros [|k]; cbn [firstn]; try constructor; auto.
    rewrite Forall_forall in *. intros y Hy. apply Hx. rewrite <- (firstn_skipn k). apply in_or_app. left. assumption.
  Qed.

  (** ** C38: every tag on the path is the start or the start cut at a hyphen, each strictly
      shorter than the one before, and the answer is the last of them *)
  Theorem C38_truncations fuel ltstr is_root root rootset path :
    search fuel ltstr = Ok (is_root, root, rootset, path) ->
    exists start parents, path = start :: parents /\ Forall (fun c => cut c start) parents /\
      StronglySorted shorter path /\ ends_with path root /\
      (to_root = false -> List.length parents <= 1).
  Proof.
    intros H. apply C38_path in H. destruct H as (start & ps & k & -> & HE & Hk & HP).
    exists start, (firstn k ps). split; [reflexivity|].
    assert (HC : Forall (fun c => cut c start) ps /\ StronglySorted shorter ps).
    { destruct HP as [(-> & _)|(ts & _ & HP & _)]; [split; constructor|]. eapply parents_on_start. eassumption. }
    destruct HC as [HC HS].
    assert (HC' : Forall (fun c => cut c start) (firstn k ps)).
    { rewrite Forall_forall in *. intros c Hin. apply HC. rewrite <- (firstn_skipn k). apply in_or_app. left. assumption. }
    split; [assumption|]. split; [|split; [assumption|]].
    - constructor; [apply firstn_sorted; assumption|]. rewrite Forall_forall in *. intros c Hin. apply cut_shorter. auto.
    - intros Ht. rewrite firstn_length. specialize (Hk Ht). lia.
  Qed.

  (** ** C38: every parent on the path has a tag set that agrees with the one of the start in
      what was asked for, is not the same, and has an SLDR file if one was asked for *)
  Theorem C38_parents fuel ltstr is_root root rootset start parents :
    search fuel ltstr = Ok (is_root, root, rootset, start :: parents) ->
    forall c, In c parents -> exists t r, tagset c = Some t /\ tstr r = start /\ teq t r = false /\ alike t r /\
      (needs_sldr = true -> sldr t = true).
  Proof.
    intros H c Hc. apply C38_path in H. destruct H as (st & ps & k & [= <- ->] & _ & _ & HP).
    destruct HP as [(-> & -> & _)|(ts & -> & HP & _)]; [destruct Hc|].
    assert (Hi : In c ps) by (rewrite <- (firstn_skipn k); apply in_or_app; left; assumption).
    destruct (parents_on_sub _ _ _ _ HP) as [A _]. destruct (A c Hi) as [_ (p' & t & r & E1 & E2 & N1 & _ & HA & HS)].
    exists t, r. subst ts. auto.
  Qed.

  (** ** C38: going to the root, the path has all of them *)
  Theorem C38_all fuel ltstr is_root root rootset path :
    to_root = true -> search fuel ltstr = Ok (is_root, root, rootset, path) ->
    path = [[]] \/
    exists ts start ps, start = ostr tstr ts /\ path = start :: ps /\
      parents_on ts start (remove_private start :: chain (remove_private start)) ps.
  Proof.
    intros Ht H. apply C38_path in H. destruct H as (start & ps & k & -> & _ & _ & HP).
    destruct HP as [(-> & -> & HS)|(ts & -> & HP & Hk)].
    - left. rewrite (HS Ht). reflexivity.
    - right. exists ts, (ostr tstr ts), ps. split; [reflexivity|]. split; [|assumption].
      rewrite firstn_all2 by auto. reflexivity.
  Qed.
End Loop.

(** * Findings *)
(** a tag that begins with a hyphen is never shortened further and never ends the loop *)
Theorem C38_leading_hyphen_refuted : exists (lookup : pystr -> bool -> option unit) (tstr : unit -> pystr) ltstr,
  forall fuel, find_parents lookup (fun _ _ => true) tstr (fun _ => None) (fun _ => None) (fun _ => Some (lit "f"))
    (fun _ => None) (fun _ => None) (fun _ => false) (fun _ => false) (lit "f") true false true false fuel ltstr = Raise OutOfFuel.
Proof.
  exists (fun _ _ => Some tt), (fun _ => lit "-a"), (lit "a"). intros fuel. unfold find_parents.
  cbn [start_set ostr].
  assert (G : forall fuel, parent_loop (fun _ _ => Some tt) (fun _ _ => true) (fun _ => None) (fun _ => None) (fun _ => Some (lit "f"))
     (fun _ => None) (fun _ => false) (fun _ => false) (lit "f") true false true false fuel (Some tt) true true false (lit "-a") (lit "-a") [lit "-a"]
     = Raise OutOfFuel).
  { clear fuel. induction fuel as [|fuel IH]; [reflexivity|]. cbn [parent_loop negb].
    unfold mintag_file. change (streq (lit "f") (lit "f")) with true. cbn [bind andb].
    change (trim_tag (lit "-a")) with (lit "-a", true). cbn [oeq orb]. assumption. }
  destruct fuel as [|fuel]; [reflexivity|]. cbn [parent_loop negb].
  change (remove_private (lit "-a")) with (lit "-a"). cbn [oeq orb]. rewrite G. reflexivity.
Qed.

(** a tag with a hyphen that is not found at all makes the search raise *)
Theorem C38_unknown_raises (T : Type) (lookup : pystr -> bool -> option T) teq tstr script region ttag ttags tvariants sldr isfile
    this_file ns ms mr fuel ltstr :
  (forall g b, lookup g b = None) -> In 45%N ltstr -> this_file <> lit "None" -> 2 <= fuel ->
  find_parents lookup teq tstr script region ttag ttags tvariants sldr isfile this_file true ns ms mr fuel ltstr = Raise TypeError.
Proof.
  intros Hn Hi Hf H2. unfold find_parents, start_set. rewrite !Hn.
  destruct (rfind (lit "-") ltstr) as [r|] eqn:E.
  2:{ exfalso. apply in_split in Hi. destruct Hi as (a & b & ->). eapply rfind_None; [|exact E|reflexivity]. discriminate. }
  cbn [negb andb]. rewrite andb_false_r. cbn [ostr].
  destruct fuel as [|[|fuel]]; [lia|lia|]. cbn [parent_loop negb]. rewrite !Hn. cbn [oeq orb].
  unfold mintag_file.
  destruct (streq_spec (lit "None") this_file) as [Ef|Ef]; [congruence|]. reflexivity.
Qed.

(** * Example: az-Latn-IR-x-foo in a small database *)
Section Example.
  Let table : list (pystr * (pystr * pystr)) :=
    [(lit "az-Latn-IR-x-foo", (lit "Latn", lit "IR")); (lit "az-Latn-IR", (lit "Latn", lit "IR"));
     (lit "az-Latn", (lit "Latn", lit "AZ")); (lit "az", (lit "Latn", lit "AZ"))].
  Let find_ (g : pystr) (_ : bool) : option pystr := if dmem streq table g then Some g else None.
  Let attr (f : pystr * pystr -> pystr) (t : pystr) : option pystr := option_map f (dget streq table t).
  Let run to_root ms mr := find_parents find_ streq (fun t => t) (attr fst) (attr snd) (fun t => Some t) (fun _ => Some [])
    (fun _ => None) (fun _ => true) (fun _ => false) (lit "az-Latn-IR-x-foo") to_root true ms mr 9 (lit "az-Latn-IR-x-foo").
  Example C38_example_all : run true true false =
    Ok (false, lit "az", Some (lit "az"), [lit "az-Latn-IR-x-foo"; lit "az-Latn-IR"; lit "az-Latn"; lit "az"]).
  Proof. vm_compute. reflexivity. Qed.
  Example C38_example_region : run true true true =
    Ok (false, lit "az-Latn-IR", Some (lit "az-Latn-IR"), [lit "az-Latn-IR-x-foo"; lit "az-Latn-IR"]).
  Proof. vm_compute. reflexivity. Qed.
  Example C38_example_hypotheses : (forall t, streq t t = true) /\ no_leading_hyphen (lit "az-Latn-IR-x-foo").
  Proof. split; [exact streq_refl|]. intros s' E. discriminate. Qed.
End Example.
