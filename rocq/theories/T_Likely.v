(** C79: completing the registry of tags from the likely subtags, the extras and the
    supplemental data (lib/sldr/langtags_full.py readLikelySubtags, readExtras,
    readSupplementalData). *)
From Coq Require Import String Relations.
From Verif Require Import Py PyFacts M_LangTags P_LangTags T_LangTags T_LangTags2 M_Likely.
Local Open Scope list_scope.
Local Open Scope nat_scope.

(** ** Specification *)
(** The subtags of ordinary tags: an extended language has three letters, a script four
    characters, a region two characters, or three that start with a digit. *)
Definition digit_first (s : pystr) : bool := match s with c :: _ => is_digit c | [] => false end.
Definition ext_ok (p : pystr) : Prop := length p = 3 /\ digit_first p = false.
Definition lang_ok (L : pystr) : Prop :=
  exists h rest, split_on HY L = h :: rest /\ h <> [] /\ Forall ext_ok rest.
Definition script_ok (s : pystr) : Prop := length s = 4 /\ ~ In HY s.
Definition region_ok (r : pystr) : Prop :=
  ~ In HY r /\ r <> ZZ /\ (length r = 2 \/ (length r = 3 /\ digit_first r = true)).
(** a tag of such a language, script and region, and nothing else *)
Definition plain_tag (t : tag) : Prop :=
  (exists L, t_lang t = Some L /\ lang_ok L) /\
  (forall s, t_script t = Some s -> script_ok s) /\
  (forall r, t_region t = Some r -> region_ok r) /\
  t_vars t = None /\ t_exts t = None.

(** the written form of language, script and region *)
Definition written (L : pystr) (s r : option pystr) : pystr := join [HY] (L :: olist s ++ olist r).
(** [f] is a form of [t]: its script and its region may be left out *)
Definition names (f : pystr) (t : tag) : Prop :=
  exists L s r, t_lang t = Some L /\ (s = None \/ s = t_script t) /\ (r = None \/ r = t_region t) /\
    f = written L s r.
(** A registry of such tags, in which every key is a form of the tag that it leads to *)
Definition sound (st : rstate) : Prop :=
  forall f i, lookup (fst st) f = Some i ->
    i < snd st /\ plain_tag (r_obj (fst st) i) /\ names f (r_obj (fst st) i).

(** [f] leads to a tag with these subtags *)
Definition leads (st : rstate) (f L : pystr) (s r : option pystr) : Prop :=
  exists i, lookup (fst st) f = Some i /\
    t_lang (r_obj (fst st) i) = Some L /\ t_script (r_obj (fst st) i) = s /\ t_region (r_obj (fst st) i) = r.
Definition registered (st : rstate) (f : pystr) : Prop := lookup (fst st) f <> None.

(** ** Forms are unambiguous *)
Lemma pieces_written L s r :
  (forall x, s = Some x -> ~ In HY x) -> (forall x, r = Some x -> ~ In HY x) ->
  split_on HY (written L s r) = split_on HY L ++ olist s ++ olist r.
Proof.
  intros Hs Hr. unfold written.
  assert (J : forall l m, l <> [] -> join [HY] (join [HY] l :: m) = join [HY] (l ++ m)).
  { induction l as [|a l IH]; intros m Hl; [congruence|]. destruct l as [|b l].
    - reflexivity.
    - specialize (IH m ltac:(discriminate)). cbn [app] in *.
      change (join [HY] (a :: b :: l ++ m)) with (a ++ [HY] ++ join [HY] (b :: l ++ m)).
      rewrite <- IH. change (join [HY] (a :: b :: l)) with (a ++ [HY] ++ join [HY] (b :: l)).
      destruct m as [|x m]; [reflexivity|].
      change (join [HY] ((a ++ [HY] ++ join [HY] (b :: l)) :: x :: m))
        with ((a ++ [HY] ++ join [HY] (b :: l)) ++ [HY] ++ join [HY] (x :: m)).
      change (join [HY] (join [HY] (b :: l) :: x :: m)) with (join [HY] (b :: l) ++ [HY] ++ join [HY] (x :: m)).
      now rewrite <- !app_assoc. }
  rewrite <- (join_split HY L) at 1. rewrite J by apply split_on_nonempty.
  apply split_join.
  - pose proof (split_on_nonempty HY L). destruct (split_on HY L); [congruence | discriminate].
  - rewrite !Forall_app. split; [|split].
    + apply Forall_forall. intros x Hx. now apply (split_on_In HY L).
    + destruct s; cbn [olist]; constructor; [now apply Hs | constructor].
    + destruct r; cbn [olist]; constructor; [now apply Hr | constructor].
Qed.

Definition okopt (P : pystr -> Prop) (o : option pystr) : Prop := forall x, o = Some x -> P x.
Lemma script_not_ext s : script_ok s -> ~ ext_ok s.
Proof. intros [H _] [H' _]. lia. Qed.
Lemma region_not_ext r : region_ok r -> ~ ext_ok r.
Proof. intros (_ & _ & [H|[_ H]]) [H1 H2]; [lia | congruence]. Qed.
Lemma script_not_region s : script_ok s -> ~ region_ok s.
Proof. intros [H _] (_ & _ & [H'|[H' _]]); lia. Qed.

Lemma tail_unique : forall p q s s' r r', Forall ext_ok p -> Forall ext_ok q ->
  okopt script_ok s -> okopt script_ok s' -> okopt region_ok r -> okopt region_ok r' ->
  p ++ olist s ++ olist r = q ++ olist s' ++ olist r' -> p = q /\ s = s' /\ r = r'.
Proof.
  assert (B : forall a q s s' r r', ext_ok a -> okopt script_ok s -> okopt region_ok r ->
    olist s ++ olist r = a :: q ++ olist s' ++ olist r' -> False).
  { intros a q s s' r r' Ha Hs Hr E. destruct s as [s|]; cbn [olist app] in E.
    - injection E as -> _. exact (script_not_ext _ (Hs _ eq_refl) Ha).
    - destruct r as [r|]; cbn [olist app] in E; [|discriminate]. injection E as -> _.
      exact (region_not_ext _ (Hr _ eq_refl) Ha). }
  induction p as [|a p IH]; intros q s s' r r' Hp Hq Hs Hs' Hr Hr' E.
  - destruct q as [|b q].
    + split; [reflexivity|]. cbn [app] in E.
      destruct s as [s|], s' as [s'|]; cbn [olist app] in E.
      * injection E as -> E. destruct r, r'; cbn [olist] in E; try discriminate; [injection E as ->|]; auto.
      * destruct r' as [r'|]; cbn [olist] in E; [|discriminate]. injection E as -> _.
        destruct (script_not_region _ (Hs _ eq_refl) (Hr' _ eq_refl)).
      * destruct r as [r|]; cbn [olist] in E; [|discriminate]. injection E as -> _.
        destruct (script_not_region _ (Hs' _ eq_refl) (Hr _ eq_refl)).
      * destruct r, r'; cbn [olist] in E; try discriminate; [injection E as ->|]; auto.
    + exfalso. inversion Hq; subst. exact (B b q s s' r r' ltac:(assumption) Hs Hr E).
  - destruct q as [|b q].
    + exfalso. inversion Hp; subst. symmetry in E. exact (B a p s' s r' r ltac:(assumption) Hs' Hr' E).
    + inversion Hp; subst. inversion Hq; subst. injection E as -> E.
      destruct (IH q s s' r r') as (-> & -> & ->); auto.
Qed.

Lemma written_unique L L' s s' r r' : lang_ok L -> lang_ok L' ->
  okopt script_ok s -> okopt script_ok s' -> okopt region_ok r -> okopt region_ok r' ->
  written L s r = written L' s' r' -> L = L' /\ s = s' /\ r = r'.
Proof.
  intros (h & p & HL & _ & Hp) (h' & q & HL' & _ & Hq) Hs Hs' Hr Hr' E.
  apply (f_equal (split_on HY)) in E.
  rewrite !pieces_written in E by (intros x Hx; first [now apply Hs in Hx as [? ?] | now apply Hs' in Hx as [? ?]
    | now apply Hr in Hx as [? ?] | now apply Hr' in Hx as [? ?]]).
  rewrite HL, HL' in E. cbn [app] in E. injection E as Eh E.
  destruct (tail_unique p q s s' r r') as (Ep & -> & ->); auto.
  split; [|auto]. rewrite <- (join_split HY L), <- (join_split HY L'), HL, HL', Eh, Ep. reflexivity.
Qed.

(** ** Plain tags *)
Lemma plain_tidy t : plain_tag t -> tidy t.
Proof.
  intros ((L & HL & h & rest & Hsp & Hh & _) & Hs & Hr & Hv & He). constructor.
  - intros l E. rewrite HL in E. injection E as <-. intros ->. cbn in Hsp. injection Hsp as <- _. now apply Hh.
  - intros s E. destruct (Hs _ E) as [Hl _]. destruct s; [discriminate | discriminate].
  - intros s E. destruct (Hr _ E) as (_ & _ & [Hl|[Hl _]]); destruct s; discriminate.
  - intros vs E. congruence.
  - intros d E. congruence.
Qed.

Lemma plain_forms t L f : plain_tag t -> t_lang t = Some L ->
  (In f (allforms t) <-> exists s r, shown (t_hidescript t) (t_script t) s /\
     shown (t_hideregion t) (t_region t) r /\ (s <> None \/ r <> None \/ t_hideboth t = true) /\
     f = written L s r).
Proof.
  intros HP HL. rewrite (C48_forms t f (plain_tidy t HP)). destruct HP as (_ & _ & _ & Hv & He).
  assert (X : forall s r, join [HY] (olist (t_lang t) ++ olist s ++ olist r ++ olists (t_vars t) ++ ext_list t)
              = written L s r).
  { intros s r. rewrite HL, Hv. unfold ext_list. rewrite He. cbn [olist olists app].
    rewrite app_nil_r. reflexivity. }
  split; intros (s & r & H1 & H2 & H3 & H4); exists s, r; rewrite X in *; auto.
Qed.
Lemma forms_names t f : plain_tag t -> In f (allforms t) -> names f t.
Proof.
  intros HP Hf. pose proof HP as ((L & HL & _) & _). apply (plain_forms t L f HP HL) in Hf.
  destruct Hf as (s & r & H1 & H2 & _ & ->). exists L, s, r. split; [exact HL|].
  unfold shown in *. intuition.
Qed.
Lemma repr_written t L : plain_tag t -> t_lang t = Some L -> tag_repr t = written L (t_script t) (t_region t).
Proof.
  intros (_ & _ & _ & Hv & He) HL. unfold tag_repr, repr_tags, ext_list, written. rewrite HL, Hv, He.
  cbn [olist olists app]. now rewrite app_nil_r.
Qed.

(** ** Tags only grow *)
Definition grows (t u : tag) : Prop :=
  t_lang u = t_lang t /\ (t_script t <> None -> t_script u = t_script t) /\
  (t_region t <> None -> t_region u = t_region t).
Lemma grows_refl t : grows t t.
Proof. repeat split. Qed.
Lemma grows_trans t u w : grows t u -> grows u w -> grows t w.
Proof.
  intros (A1 & A2 & A3) (B1 & B2 & B3). split; [congruence|]. split; intros H.
  - rewrite B2; [now apply A2|]. rewrite A2; exact H.
  - rewrite B3; [now apply A3|]. rewrite A3; exact H.
Qed.
Lemma names_grow f t u : grows t u -> names f t -> names f u.
Proof.
  intros (A1 & A2 & A3) (L & s & r & HL & Hs & Hr & Hf). exists L, s, r.
  split; [congruence|]. split; [|split; [|exact Hf]].
  - destruct Hs as [->| ->]; [now left|]. destruct (t_script t); [right; now rewrite A2 by discriminate | now left].
  - destruct Hr as [->| ->]; [now left|]. destruct (t_region t); [right; now rewrite A3 by discriminate | now left].
Qed.
Lemma merge_grows t o : grows t (fst (merge_equivalent t o)).
Proof.
  destruct (merge_equivalent t o) as [r ok] eqn:E. cbn [fst]. destruct ok.
  - destruct (C16_merge_true _ _ _ E) as (H1 & H2 & H3 & _). split; [exact H1|]. rewrite H2, H3.
    unfold first_set. split; intros H.
    + destruct (t_script t); [reflexivity | congruence].
    + destruct (t_region t); [reflexivity | congruence].
  - destruct (C16_merge_false _ _ _ E) as (H1 & H2 & H3 & _). split; [exact H1|]. auto.
Qed.
Lemma merge_rest_exts s o : t_exts s = None -> t_exts o = None -> t_exts (merge_rest s o) = None.
Proof.
  intros H1 H2. unfold merge_rest. rewrite H2.
  assert (D : forall s7, t_exts s7 = None ->
    t_exts (match t_desc s7 with [] => match t_desc o with [] => s7 | ds => set_desc s7 ds end | _ => s7 end) = None).
  { intros s7 H. destruct (t_desc s7); [|exact H]. destruct (t_desc o); exact H. }
  apply D. repeat (match goal with |- context [if ?c then _ else _] => destruct c end);
    destruct (t_vars o); repeat (match goal with |- context [match ?c with Some _ => _ | None => _ end] => destruct c end); exact H1.
Qed.
Lemma merge_exts_none t o : t_exts t = None -> t_exts o = None -> t_exts (fst (merge_equivalent t o)) = None.
Proof.
  intros H1 H2. unfold merge_equivalent.
  repeat (match goal with
    | |- context [if ?c then _ else _] => destruct c
    end); cbn [fst]; try exact H1; apply merge_rest_exts; try exact H2; exact H1.
Qed.
Lemma merge_plain t o : plain_tag t -> plain_tag o -> plain_tag (fst (merge_equivalent t o)).
Proof.
  intros ((L & HL & HLo) & Hs & Hr & Hv & He) (_ & Hs' & Hr' & Hv' & He').
  pose proof (merge_exts_none t o He He') as HX.
  destruct (merge_equivalent t o) as [r ok] eqn:E. cbn [fst] in *. destruct ok.
  - destruct (C16_merge_true _ _ _ E) as (H1 & H2 & H3 & H4 & _).
    split; [exists L; split; [congruence | exact HLo]|]. unfold first_set in *.
    split; [|split; [|split; [|exact HX]]].
    + intros s. rewrite H2. destruct (t_script t); [apply Hs | apply Hs'].
    + intros s. rewrite H3. destruct (t_region t); [apply Hr | apply Hr'].
    + rewrite H4, Hv. exact Hv'.
  - destruct (C16_merge_false _ _ _ E) as (H1 & H2 & H3 & H4 & _).
    split; [exists L; split; [congruence | exact HLo]|]. rewrite H2, H3, H4. auto.
Qed.
Lemma odd_plain t : plain_tag t -> oddities t = t.
Proof. intros (_ & _ & _ & Hv & _). unfold oddities. now rewrite Hv. Qed.
Lemma newtag_plain L s r : lang_ok L -> okopt script_ok s -> okopt region_ok r ->
  plain_tag (newtag (Some L) s r None None).
Proof. intros HL Hs Hr. split; [exists L; auto|]. cbn [newtag t_script t_region t_vars t_exts]. auto. Qed.

Lemma analyse_plain all : (forall f t, dget streq all f = Some t -> plain_tag t) ->
  forall fuel t t', plain_tag t -> analyse fuel all t = Some t' -> plain_tag t'.
Proof.
  intros HA. induction fuel as [|fuel IH]; intros t t' HP H; [discriminate|]. cbn [analyse] in H.
  destruct (dget streq all (tag_str t)) as [t0|] eqn:E0; [injection H as <-; eapply HA; exact E0|].
  pose proof HP as ((L & HL & HLo) & Hs & Hr & Hv & He).
  rewrite HL, Hv, He in H. cbn [isNone negb orb] in H.
  destruct (t_region t) as [rg|] eqn:Er.
  - assert (Z : rg <> ZZ) by apply (Hr _ eq_refl). rewrite (proj2 (streq_false rg ZZ) Z) in H.
    destruct (analyse fuel all _) as [test|] eqn:Et; [|discriminate].
    apply IH in Et; [|apply newtag_plain; [exact HLo | exact Hs | intros x Hx; discriminate]].
    destruct (dmem streq all (tag_str test)); injection H as <-; [now apply merge_plain | exact HP].
  - destruct (t_script t) as [s|] eqn:Es.
    + destruct (analyse fuel all _) as [test|] eqn:Et; [|discriminate].
      apply IH in Et; [|apply newtag_plain; [exact HLo | intros x Hx; discriminate | intros x Hx; discriminate]].
      destruct (dmem streq all (tag_str test)); injection H as <-.
      * rewrite odd_plain by now apply merge_plain. now apply merge_plain.
      * now rewrite odd_plain.
    + injection H as <-. now rewrite odd_plain.
Qed.

Lemma extends_grows t u : (forall r, t_region t = Some r -> r <> ZZ) -> extends t u -> grows t u.
Proof.
  intros HZ (H1 & H2 & H3 & _). split; [exact H1|]. split; [exact H2|]. intros H. apply H3; [exact H|].
  intros E. now apply (HZ _ E).
Qed.

(** ** One step of the registry *)
Lemma view_get r f : dget streq (view r) f = match dget streq (r_map r) f with Some i => Some (r_obj r i) | None => None end.
Proof.
  unfold view. induction (r_map r) as [|[k v] m IH]; [reflexivity|]. cbn [map fst snd dget].
  destruct (streq f k); [reflexivity | exact IH].
Qed.

Lemma rank_le t : rank t <= 4.
Proof. unfold rank. destruct (isNone (t_script t)), (isNone (t_region t)), (isNone (t_vars t)), (isNone (t_exts t)); cbn; lia. Qed.
Lemma analyse_defined all t : exists t', analyse rank_bound all t = Some t'.
Proof.
  destruct (C49_analyse_terminates all t) as [t' H]. exists t'.
  pose proof (C49_analyse_fuel all _ _ _ H (4 - rank t)) as G. pose proof (rank_le t).
  replace (S (rank t) + (4 - rank t)) with rank_bound in G; [exact G|]. unfold rank_bound. lia.
Qed.

(** what every part of the readers does to a state *)
Definition evolves (st st' : rstate) : Prop :=
  (forall f, registered st f -> registered st' f) /\ snd st <= snd st' /\
  (forall o, o < snd st -> grows (r_obj (fst st) o) (r_obj (fst st') o)).
Lemma evolves_refl st : evolves st st.
Proof. split; [auto|]. split; [lia|]. intros. apply grows_refl. Qed.
Lemma evolves_trans a b c : evolves a b -> evolves b c -> evolves a c.
Proof.
  intros (A1 & A2 & A3) (B1 & B2 & B3). split; [auto|]. split; [lia|]. intros o Ho.
  eapply grows_trans; [apply A3; exact Ho | apply B3; lia].
Qed.

Lemma change_ok st i g : sound st -> (forall t, grows t (g t)) -> (plain_tag (r_obj (fst st) i) -> plain_tag (g (r_obj (fst st) i))) ->
  sound (change st i g) /\ evolves st (change st i g) /\ r_obj (fst (change st i g)) i = g (r_obj (fst st) i).
Proof.
  intros HS HG HP. unfold change. cbn [fst snd r_obj].
  assert (U : forall o, upd (r_obj (fst st)) i (g (r_obj (fst st) i)) o =
     if Nat.eqb o i then g (r_obj (fst st) i) else r_obj (fst st) o) by reflexivity.
  assert (GR : forall o, grows (r_obj (fst st) o) (upd (r_obj (fst st)) i (g (r_obj (fst st) i)) o)).
  { intros o. rewrite U. destruct (Nat.eqb_spec o i) as [->|_]; [apply HG | apply grows_refl]. }
  split; [|split].
  - intros f j Hj. unfold lookup in Hj. cbn [fst snd r_map r_obj] in *. destruct (HS f j Hj) as (A & B & C).
    split; [exact A|]. split; [|exact (names_grow _ _ _ (GR j) C)].
    rewrite U. destruct (Nat.eqb_spec j i) as [->|_]; [now apply HP | exact B].
  - split; [intros f Hf; exact Hf|]. cbn [snd fst r_obj]. split; [lia|]. intros o _. apply GR.
  - rewrite U, Nat.eqb_refl. reflexivity.
Qed.

(** a new tag: the object that is worked on, and what it is *)
Lemma settle_new_ok st t st1 i : sound st -> plain_tag t -> settle_new st t = (st1, i) ->
  sound st1 /\ evolves st st1 /\ i < snd st1 /\ plain_tag (r_obj (fst st1) i) /\
  r_map (fst st1) = r_map (fst st) /\
  ((st1 = st /\ lookup (fst st) (tag_str t) = Some i) \/
   (lookup (fst st) (tag_str t) = None /\ i = snd st /\ grows t (r_obj (fst st1) i))).
Proof.
  intros HS HP H. destruct st as [r n]. unfold settle_new in H. cbn [fst snd] in *.
  unfold lookup in *. destruct (dget streq (r_map r) (tag_str t)) as [j|] eqn:E.
  - injection H as <- <-. destruct (HS _ _ E) as (A & B & _). cbn [fst snd] in *.
    repeat (split; [first [exact HS | apply evolves_refl | exact A | exact B | reflexivity]|]). left. auto.
  - destruct (analyse_defined (view r) t) as [t' Ht]. rewrite Ht in H. injection H as <- <-. cbn [fst snd r_obj r_map].
    assert (PT : plain_tag t').
    { eapply analyse_plain; [|exact HP|exact Ht]. intros f u Hu. rewrite view_get in Hu.
      destruct (dget streq (r_map r) f) as [j|] eqn:Ej; [|discriminate]. injection Hu as <-. apply (HS f j Ej). }
    assert (NEW : forall o, o < n -> upd (r_obj r) n t' o = r_obj r o).
    { intros o Ho. unfold upd. destruct (Nat.eqb_spec o n); [lia | reflexivity]. }
    assert (GT : grows t t').
    { destruct (C49_analyse_result _ _ _ _ Ht) as [X|[_ X]].
      - rewrite view_get in X. rewrite E in X. discriminate.
      - apply extends_grows; [|exact X]. intros x Hx. destruct HP as (_ & _ & Hr & _). now apply (Hr _ Hx). }
    split; [|split; [|split; [|split; [|split]]]].
    + intros f j Hj. unfold lookup in Hj. cbn [fst snd r_map r_obj] in *. destruct (HS f j Hj) as (A & B & C). cbn [fst snd] in *.
      rewrite NEW by exact A. split; [lia | auto].
    + split; [intros f Hf; exact Hf|]. cbn [fst snd r_obj]. split; [lia|]. intros o Ho. rewrite NEW by exact Ho. apply grows_refl.
    + lia.
    + unfold upd. now rewrite Nat.eqb_refl.
    + reflexivity.
    + right. split; [reflexivity|]. split; [reflexivity|]. unfold upd. now rewrite Nat.eqb_refl.
Qed.

Lemma settle_old_ok st i st1 j : sound st -> i < snd st -> plain_tag (r_obj (fst st) i) -> settle_old st i = (st1, j) ->
  sound st1 /\ evolves st st1 /\ j < snd st1 /\ plain_tag (r_obj (fst st1) j) /\
  r_map (fst st1) = r_map (fst st).
Proof.
  intros HS Hi HP H. destruct st as [r n]. unfold settle_old in H. cbn [fst snd] in *.
  destruct (dget streq (r_map r) (tag_str (r_obj r i))) as [k|] eqn:E.
  - injection H as <- <-. destruct (HS _ _ E) as (A & B & _). cbn [fst snd] in *.
    repeat (split; [first [exact HS | apply evolves_refl | exact A | exact B]|]). reflexivity.
  - destruct (analyse_defined (view r) (r_obj r i)) as [t' Ht]. rewrite Ht in H. injection H as <- <-. cbn [fst snd r_obj r_map].
    assert (PT : plain_tag t').
    { eapply analyse_plain; [|exact HP|exact Ht]. intros f u Hu. rewrite view_get in Hu.
      destruct (dget streq (r_map r) f) as [j|] eqn:Ej; [|discriminate]. injection Hu as <-. apply (HS f j Ej). }
    assert (GT : grows (r_obj r i) t').
    { destruct (C49_analyse_result _ _ _ _ Ht) as [X|[_ X]].
      - rewrite view_get in X. rewrite E in X. discriminate.
      - apply extends_grows; [|exact X]. intros x Hx. destruct HP as (_ & _ & Hr & _). now apply (Hr _ Hx). }
    assert (GR : forall o, grows (r_obj r o) (upd (r_obj r) i t' o)).
    { intros o. unfold upd. destruct (Nat.eqb_spec o i) as [->|_]; [exact GT | apply grows_refl]. }
    split; [|split; [|split; [|split]]].
    + intros f j Hj. unfold lookup in Hj. cbn [fst snd r_map r_obj] in *. destruct (HS f j Hj) as (A & B & C). cbn [fst snd] in *.
      split; [exact A|]. split; [|exact (names_grow _ _ _ (GR j) C)].
      unfold upd. destruct (Nat.eqb_spec j i); [exact PT | exact B].
    + split; [intros f Hf; exact Hf|]. cbn [fst snd r_obj]. split; [lia|]. intros o _. apply GR.
    + exact Hi.
    + unfold upd. now rewrite Nat.eqb_refl.
    + reflexivity.
Qed.

Section Steps.
Variable order : list pystr -> list pystr.
Hypothesis HO : set_order order.

Lemma put_ok st i : sound st -> i < snd st -> plain_tag (r_obj (fst st) i) ->
  sound (put order st i) /\ evolves st (put order st i) /\
  (forall f, In f (allforms (r_obj (fst st) i)) -> registered (put order st i) f).
Proof.
  intros HS Hi HP. destruct st as [r n]. unfold put, registered. cbn [fst snd] in *.
  destruct (add order r i) as [r' ret] eqn:E. cbn [fst].
  pose proof (C17_add_spec order r i r' ret HO E) as H. cbv zeta in H.
  destruct H as (H1 & H2 & H3).
  assert (OBJ : (forall o, grows (r_obj r o) (r_obj r' o)) /\
     (forall o, (o = i \/ exists f, lookup r f = Some o) -> plain_tag (r_obj r' o)) /\
     (forall f o, lookup r' f = Some o -> In f (allforms (r_obj r i)) -> lookup r f = Some o \/ o = i \/
         (exists f0, lookup r f0 = Some o /\ o = ret /\ snd (merge_equivalent (r_obj r o) (r_obj r i)) = true /\
            r_obj r' o = fst (merge_equivalent (r_obj r o) (r_obj r i)) /\ In f0 (allforms (r_obj r i))))).
  { assert (PO : forall o, (o = i \/ exists f, lookup r f = Some o) -> plain_tag (r_obj r o)).
    { intros o [->|[f Hf]]; [exact HP|]. apply (HS f o Hf). }
    destruct H3 as [(_ & -> & Ho & Hl)|(f0 & v & Hf0 & Ev & _ & Hoth & Hv & Hres)].
    - split; [intros o; rewrite Ho; apply grows_refl|]. split; [intros o Hx; rewrite Ho; now apply PO|].
      intros f o Hf Hin. rewrite (Hl f Hin) in Hf. injection Hf as <-. auto.
    - split; [|split].
      + intros o. destruct (Nat.eq_dec o v) as [->|Hn]; [rewrite Hv; apply merge_grows | rewrite Hoth by exact Hn; apply grows_refl].
      + intros o Hx. destruct (Nat.eq_dec o v) as [->|Hn]; [|rewrite Hoth by exact Hn; now apply PO].
        rewrite Hv. apply merge_plain; [apply PO; eauto | exact HP].
      + intros f o Hf Hin. destruct (snd (merge_equivalent (r_obj r v) (r_obj r i))) eqn:Es; destruct Hres as [-> Hres].
        * rewrite (Hres f Hin) in Hf. destruct (lookup r f) as [o'|]; [now left|]. injection Hf as <-.
          right. right. exists f0. auto.
        * rewrite (Hres f Hin) in Hf. injection Hf as <-. auto. }
  destruct OBJ as (GR & PL & OWN).
  split; [|split].
  - intros f o Hf. cbn [fst snd] in *.
    destruct (in_dec (list_eq_dec N.eq_dec) f (allforms (r_obj r i))) as [Hin|Hin].
    + pose proof (forms_names _ _ HP Hin) as Hn.
      destruct (OWN f o Hf Hin) as [Hold|[->|(f0 & Hf0 & _ & Hm & Hobj & Hin0)]].
      * destruct (HS f o Hold) as (A & _ & C). split; [exact A|]. split; [apply PL; eauto|].
        exact (names_grow _ _ _ (GR o) C).
      * split; [exact Hi|]. split; [apply PL; now left|]. exact (names_grow _ _ _ (GR i) Hn).
      * destruct (HS f0 o Hf0) as (A & B & C). split; [exact A|]. split; [apply PL; eauto|].
        (* the object that took the tag in: same language, and the tag's script and region *)
        rewrite Hobj. destruct (merge_equivalent (r_obj r o) (r_obj r i)) as [m ok] eqn:Em. cbn [snd fst] in *. subst ok.
        destruct (C16_merge_true _ _ _ Em) as (M1 & M2 & M3 & _).
        pose proof (proj1 (C16_merge_iff (r_obj r o) (r_obj r i))) as MC. rewrite Em in MC. cbn [snd] in MC.
        destruct (MC eq_refl) as [MC1 MC2].
        destruct Hn as (L & s & g & HL & Hs & Hg & ->).
        assert (EL : t_lang (r_obj r o) = Some L).
        { destruct C as (L1 & s1 & g1 & HL1 & Hs1 & Hg1 & HF1).
          pose proof (forms_names _ _ HP Hin0) as (L2 & s2 & g2 & HL2 & Hs2 & Hg2 & HF2).
          destruct B as ((LB & HLB & HLBo) & HBs & HBr & _). destruct HP as ((LP & HLP & HLPo) & HPs & HPr & _).
          assert (L1 = L2); [|congruence].
          apply (written_unique L1 L2 s1 s2 g1 g2); try congruence.
          - intros x Hx. destruct Hs1 as [->| ->]; [discriminate | now apply HBs].
          - intros x Hx. destruct Hs2 as [->| ->]; [discriminate | now apply HPs].
          - intros x Hx. destruct Hg1 as [->| ->]; [discriminate | now apply HBr].
          - intros x Hx. destruct Hg2 as [->| ->]; [discriminate | now apply HPr]. }
        exists L, s, g. split; [congruence|]. unfold compatible, first_set in *.
        split; [|split; [|reflexivity]].
        -- destruct Hs as [->| ->]; [now left|]. rewrite M2. destruct (t_script (r_obj r i)); [|now left].
           right. destruct (t_script (r_obj r o)); [|reflexivity].
           destruct MC1 as [X|[X|X]]; congruence.
        -- destruct Hg as [->| ->]; [now left|]. rewrite M3. destruct (t_region (r_obj r i)); [|now left].
           right. destruct (t_region (r_obj r o)); [|reflexivity].
           destruct MC2 as [X|[X|X]]; congruence.
    + rewrite (H2 f Hin) in Hf. destruct (HS f o Hf) as (A & B & C). split; [exact A|].
      split; [apply PL; eauto|]. exact (names_grow _ _ _ (GR o) C).
  - split; [|split; [cbn; lia | intros o _; apply GR]].
    intros f Hf. unfold registered in *. cbn [fst] in *.
    destruct (in_dec (list_eq_dec N.eq_dec) f (allforms (r_obj r i))) as [Hin|Hin]; [now apply H1 | now rewrite H2].
  - exact H1.
Qed.

End Steps.

(** ** C79 *)
(** [base] is [t] with its script, its region or both left out *)
Definition short_for (base t : tag) : Prop :=
  t_lang base = t_lang t /\ (t_script base = None \/ t_script base = t_script t) /\
  (t_region base = None \/ t_region base = t_region t) /\ t_vars base = None /\ t_exts base = None.
(** an ordinary tag with a script and a region *)
Definition full_tag (t : tag) : Prop := plain_tag t /\ t_script t <> None /\ t_region t <> None.

Section Claims.
Variables lower upper title : pystr -> pystr.
Variable order : list pystr -> list pystr.
Hypothesis HO : set_order order.
Notation parsed := (LangTag lower upper title).

Lemma parsed_flags x t : parsed x = Ok t ->
  t_hidescript t = false /\ t_hideregion t = false /\
  t_hideboth t = (isNone (t_script t) && isNone (t_region t))%bool.
Proof.
  unfold LangTag, parse.
  set (I := fun t : tag => t_hidescript t = false /\ t_hideregion t = false /\
    t_hideboth t = (isNone (t_script t) && isNone (t_region t))%bool).
  change (fun t : tag => t_hidescript t = false /\ t_hideregion t = false /\
    t_hideboth t = (isNone (t_script t) && isNone (t_region t))%bool) with I.
  destruct (parse_lang lower (newtag None None None None None) (bits_of x)) as [t1 b1] eqn:E1.
  assert (I1 : I t1 /\ t_script t1 = None /\ t_region t1 = None).
  { unfold parse_lang in E1. destruct (bits_of x) as [|b r]; [injection E1 as <- <-; repeat split|].
    destruct (len23 b); [injection E1 as <- <-; repeat split|].
    destruct (_ && _)%bool; [|injection E1 as <- <-; repeat split].
    destruct (take_priv _ r) as [l r']. injection E1 as <- <-; repeat split. }
  destruct (parse_script title t1 b1) as [[t2 b2]|e] eqn:E2; [|discriminate]. cbn [bind].
  assert (I2 : I t2 /\ t_region t2 = None).
  { unfold parse_script in E2. destruct I1 as ((A & B & C) & D & E). destruct b1 as [|b r]; [injection E2 as <- <-; repeat split; auto|].
    destruct (Nat.eqb (length b) 4); [injection E2 as <- <-; repeat split; auto|].
    destruct (Nat.eqb (length b) 3 && negb (match b with c :: _ => is_digit c | [] => false end))%bool; [|injection E2 as <- <-; repeat split; auto].
    destruct (t_lang t1); [|discriminate]. injection E2 as <- <-. repeat split; auto. }
  destruct (parse_region upper t2 b2) as [t3 b3] eqn:E3.
  assert (I3 : I t3).
  { unfold parse_region in E3. destruct I2 as ((A & B & C) & D). destruct b2 as [|b r]; [injection E3 as <- <-; repeat split; auto|].
    destruct (len23 b); injection E3 as <- <-; repeat split; auto.
    cbn [set_hideboth set_region t_hideboth t_script t_region isNone]. now rewrite andb_false_r. }
  destruct (parse_late_script t3 b3) as [[t4 b4]|e] eqn:E4; [|discriminate]. cbn [bind].
  assert (I4 : I t4).
  { unfold parse_late_script in E4. destruct I3 as (A & B & C). destruct b3 as [|b r]; [injection E4 as <- <-; repeat split; auto|].
    destruct (Nat.eqb (length b) 4 && isNone (t_script t3))%bool; [|injection E4 as <- <-; repeat split; auto].
    destruct (t_lang t3); [|discriminate]. destruct (t_region t3); [|discriminate].
    destruct r as [|b2' r2]; [injection E4 as <- <-; repeat split; auto|].
    destruct (len23 b2'); injection E4 as <- <-; repeat split; auto. }
  intros H. injection H as <-. unfold parse_rest. destruct (fold_left _ b4 _) as [[ns ex] vs].
  destruct I4 as (A & B & C). destruct vs; destruct ex; repeat split; auto.
Qed.

Lemma parsed_str x t L : parsed x = Ok t -> plain_tag t -> t_lang t = Some L ->
  tag_str t = written L (t_script t) (t_region t).
Proof.
  intros H (_ & _ & _ & Hv & He) HL. destruct (parsed_flags x t H) as (F1 & F2 & _).
  unfold tag_str, str_tags, ext_list, written. rewrite F1, F2, HL, Hv, He. cbn [negb orb olist olists app].
  now rewrite app_nil_r.
Qed.

Lemma hide_like_ok base t : plain_tag t ->
  grows t (hide_like base t) /\ plain_tag (hide_like base t) /\
  t_lang (hide_like base t) = t_lang t /\ t_script (hide_like base t) = t_script t /\ t_region (hide_like base t) = t_region t /\
  (t_script base = None -> t_hidescript (hide_like base t) = true) /\
  (t_region base = None -> t_hideregion (hide_like base t) = true) /\
  t_hideboth (hide_like base t) = t_hideboth t.
Proof.
  intros HP. unfold hide_like. destruct (t_script base), (t_region base); cbn [isNone];
    (split; [repeat split|]; split; [exact HP|]; repeat split; try discriminate).
Qed.

(** a key that is a full form leads to exactly the tag it spells *)
Lemma leads_exact st L s r : sound st -> lang_ok L -> script_ok s -> region_ok r ->
  registered st (written L (Some s) (Some r)) -> leads st (written L (Some s) (Some r)) L (Some s) (Some r).
Proof.
  intros HS HL Hs Hr HR. unfold registered in HR.
  destruct (lookup (fst st) (written L (Some s) (Some r))) as [i|] eqn:E; [|congruence]. exists i. split; [exact E|].
  destruct (HS _ _ E) as (_ & ((L' & HL' & HLo') & Hs' & Hr' & _) & (L2 & s2 & r2 & EL & Es & Er & EF)).
  assert (L2 = L') by congruence. subst L2.
  destruct (written_unique L L' (Some s) s2 (Some r) r2) as (E1 & E2 & E3).
  - exact HL.
  - exact HLo'.
  - intros x Hx. injection Hx as <-. exact Hs.
  - intros x Hx. destruct Es as [Es|Es]; rewrite Es in Hx; [discriminate | now apply Hs'].
  - intros x Hx. injection Hx as <-. exact Hr.
  - intros x Hx. destruct Er as [Er|Er]; rewrite Er in Hx; [discriminate | now apply Hr'].
  - exact EF.
  - subst. split; [exact HL'|]. destruct Es as [Es|Es]; [discriminate|]. destruct Er as [Er|Er]; [discriminate|]. auto.
Qed.

(** the object that a new full tag becomes has exactly its subtags *)
Lemma settle_exact x t st st1 i : sound st -> parsed x = Ok t -> full_tag t -> settle_new st t = (st1, i) ->
  t_lang (r_obj (fst st1) i) = t_lang t /\ t_script (r_obj (fst st1) i) = t_script t /\
  t_region (r_obj (fst st1) i) = t_region t.
Proof.
  intros HS HX (HP & Hs & Hr) H.
  destruct (settle_new_ok st t st1 i HS HP H) as (_ & _ & _ & _ & _ & [(-> & HL)|(_ & _ & G1 & G2 & G3)]).
  - pose proof HP as ((L & HL' & HLo) & HPs & HPr & _).
    rewrite (parsed_str x t L HX HP HL') in HL.
    destruct (t_script t) as [s|] eqn:Es; [|congruence]. destruct (t_region t) as [r|] eqn:Er; [|congruence].
    destruct (leads_exact st L s r HS HLo (HPs _ eq_refl) (HPr _ eq_refl)) as (i' & E1 & E2 & E3 & E4).
    { unfold registered. rewrite HL. discriminate. }
    rewrite HL in E1. injection E1 as <-. rewrite HL'. auto.
  - auto.
Qed.

(** One likelySubtag element, for any registry of ordinary tags. *)
Lemma likely_step st from to st' base t :
  sound st -> parsed from = Ok base -> parsed to = Ok t -> t_lang base <> Some (lit "und") -> plain_tag t ->
  likely_entry lower upper title order st (from, to) = Ok st' ->
  sound st' /\ evolves st st' /\
  (full_tag t -> short_for base t -> registered st' (tag_repr base) /\ registered st' (tag_repr t)).
Proof.
  intros HS Hb Ht Hu HP H. unfold likely_entry in H. cbn [fst snd] in H. rewrite Ht in H. cbn [bind] in H. rewrite Hb in H. cbn [bind] in H.
  destruct (ostreq (t_lang base) (Some (lit "und"))) eqn:EU.
  { destruct (t_lang base) as [l|]; [|discriminate]. cbn [ostreq] in EU. apply streq_true in EU. congruence. }
  destruct (settle_new st t) as [st1 i] eqn:E. injection H as <-.
  destruct (settle_new_ok st t st1 i HS HP E) as (S1 & V1 & Hi & P1 & _ & _).
  set (g := fun t => set_hideboth (hide_like base t) (t_hideboth base)).
  destruct (change_ok st1 i g S1) as (S2 & V2 & O2).
  { intros u. unfold g, hide_like. destruct (t_script base), (t_region base); repeat split. }
  { intros Pu. unfold g. apply (hide_like_ok base) in Pu. apply Pu. }
  destruct (put_ok order HO (change st1 i g) i S2) as (S3 & V3 & F3).
  { exact Hi. }
  { rewrite O2. unfold g. apply (hide_like_ok base) in P1. apply P1. }
  split; [exact S3|]. split; [eapply evolves_trans; [exact V1|]; eapply evolves_trans; [exact V2 | exact V3]|].
  intros HF (B1 & B2 & B3 & B4 & B5).
  destruct (settle_exact to t st st1 i HS Ht HF E) as (X1 & X2 & X3).
  pose proof (hide_like_ok base _ P1) as (_ & P2 & L1 & L2 & L3 & H1 & H2 & _).
  pose proof HP as ((L & HL & HLo) & _).
  assert (PG : plain_tag (g (r_obj (fst st1) i))) by exact P2.
  assert (FM := plain_forms (g (r_obj (fst st1) i)) L).
  assert (HB : t_hideboth base = (isNone (t_script base) && isNone (t_region base))%bool) by apply (parsed_flags from base Hb).
  rewrite O2 in F3.
  assert (EB : tag_repr base = written L (t_script base) (t_region base)).
  { unfold tag_repr, repr_tags, ext_list, written. rewrite B1, HL, B4, B5. cbn [olist olists app]. now rewrite app_nil_r. }
  assert (GL : t_lang (g (r_obj (fst st1) i)) = Some L) by (unfold g; cbn [set_hideboth t_lang]; congruence).
  assert (GS : t_script (g (r_obj (fst st1) i)) = t_script t) by (unfold g; cbn [set_hideboth t_script]; congruence).
  assert (GR : t_region (g (r_obj (fst st1) i)) = t_region t) by (unfold g; cbn [set_hideboth t_region]; congruence).
  split; apply F3, FM; try exact PG; try exact GL.
  - exists (t_script base), (t_region base). rewrite GS, GR. unfold shown.
    split; [|split; [|split; [|exact EB]]].
    + destruct B2 as [B2|B2]; [right; split; [now apply H1 | exact B2] | left; congruence].
    + destruct B3 as [B3|B3]; [right; split; [now apply H2 | exact B3] | left; congruence].
    + unfold g. cbn [set_hideboth t_hideboth]. rewrite HB.
      destruct (t_script base), (t_region base); cbn [isNone andb]; auto; [left | left | right; left]; discriminate.
  - exists (t_script t), (t_region t). rewrite GS, GR. unfold shown.
    split; [now left|]. split; [now left|]. split; [left; apply HF|]. apply repr_written; assumption.
Qed.

(** Reading the whole file of likely subtags into any registry of ordinary tags: no key is lost,
    the registry stays one in which every key is a form of its tag, and of every element both
    the short tag and the full tag are keys at the end, the full tag leading to exactly the
    subtags that it spells. Elements for the undetermined language are skipped. *)
Theorem C79_likely es : forall st st',
  sound st ->
  (forall from to base t, In (from, to) es -> parsed from = Ok base -> parsed to = Ok t ->
     t_lang base <> Some (lit "und") -> plain_tag t) ->
  read_likely lower upper title order st es = Ok st' ->
  sound st' /\
  (forall f, registered st f -> registered st' f) /\
  (forall from to, In (from, to) es -> exists base t, parsed from = Ok base /\ parsed to = Ok t /\
     (t_lang base <> Some (lit "und") -> full_tag t -> short_for base t ->
      registered st' (tag_repr base) /\
      exists L, t_lang t = Some L /\ leads st' (tag_repr t) L (t_script t) (t_region t))).
Proof.
  assert (G : forall es st st', sound st ->
    (forall from to base t, In (from, to) es -> parsed from = Ok base -> parsed to = Ok t ->
       t_lang base <> Some (lit "und") -> plain_tag t) ->
    read_likely lower upper title order st es = Ok st' ->
    sound st' /\ evolves st st' /\
    (forall from to, In (from, to) es -> exists base t, parsed from = Ok base /\ parsed to = Ok t /\
       (t_lang base <> Some (lit "und") -> full_tag t -> short_for base t ->
        registered st' (tag_repr base) /\ registered st' (tag_repr t)))).
  { clear es. induction es as [|[from to] es IH]; intros st st' HS HF H.
    - injection H as <-. split; [exact HS|]. split; [apply evolves_refl|]. intros f t [].
    - cbn [read_likely read_each] in H. unfold read_likely in IH.
      destruct (likely_entry lower upper title order st (from, to)) as [st1|e] eqn:E1; [|discriminate]. cbn [bind] in H.
      assert (PB : exists base t, parsed from = Ok base /\ parsed to = Ok t).
      { unfold likely_entry in E1. cbn [fst snd] in E1. destruct (parsed to) as [t|]; [|discriminate]. cbn [bind] in E1.
        destruct (parsed from) as [base|]; [|discriminate]. eauto. }
      destruct PB as (base & t & Hb & Ht).
      assert (ST : sound st1 /\ evolves st st1 /\ (t_lang base <> Some (lit "und") -> full_tag t -> short_for base t ->
         registered st1 (tag_repr base) /\ registered st1 (tag_repr t))).
      { destruct (ostreq (t_lang base) (Some (lit "und"))) eqn:EU.
        - pose proof E1 as E2. unfold likely_entry in E2. cbn [fst snd] in E2. rewrite Ht in E2. cbn [bind] in E2.
          rewrite Hb in E2. cbn [bind] in E2. rewrite EU in E2. injection E2 as <-.
          split; [exact HS|]. split; [apply evolves_refl|]. intros Hn. exfalso. apply Hn.
          destruct (t_lang base) as [l|]; [|discriminate]. cbn [ostreq] in EU. apply streq_true in EU. congruence.
        - assert (Hu : t_lang base <> Some (lit "und")).
          { intros X. rewrite X in EU. cbn [ostreq] in EU. rewrite streq_refl in EU. discriminate. }
          destruct (likely_step st from to st1 base t HS Hb Ht Hu) as (A & B & C); auto.
          exact (HF from to base t (or_introl eq_refl) Hb Ht Hu). }
      destruct ST as (S1 & V1 & R1).
      destruct (IH st1 st' S1) as (S2 & V2 & R2); auto.
      { intros f o b u Hin. eapply HF. right. exact Hin. }
      split; [exact S2|]. split; [eapply evolves_trans; eauto|].
      intros f o [Hin|Hin]; [|now apply R2]. injection Hin as <- <-. exists base, t. split; [exact Hb|]. split; [exact Ht|].
      intros X1 X2 X3. destruct (R1 X1 X2 X3) as [Y1 Y2]. split; now apply V2. }
  intros st st' HS HF H. destruct (G es st st' HS HF H) as (S1 & V1 & R1). split; [exact S1|]. split; [apply V1|].
  intros from to Hin. destruct (R1 from to Hin) as (base & t & Hb & Ht & R). exists base, t. split; [exact Hb|]. split; [exact Ht|].
  intros X1 X2 X3. destruct (R X1 X2 X3) as [Y1 Y2]. split; [exact Y1|].
  destruct X2 as (HP & Hs & Hr). pose proof HP as ((L & HL & HLo) & HPs & HPr & _). exists L. split; [exact HL|].
  rewrite (repr_written t L HP HL) in *.
  destruct (t_script t) as [s|]; [|congruence]. destruct (t_region t) as [r|]; [|congruence].
  apply leads_exact; auto.
Qed.

(** The short tag of an element leads to exactly the full tag, if the short tag was not
    registered before, or if all the registered forms of the full tag led to one and the same
    tag: so it is after the IANA registry, where each language has one tag. *)
Theorem C79_likely_from st from to st' base t L :
  sound st -> parsed from = Ok base -> parsed to = Ok t -> t_lang base <> Some (lit "und") ->
  full_tag t -> short_for base t -> t_lang t = Some L ->
  lookup (fst st) (tag_repr base) = None \/
    (forall f f' o o', names f t -> names f' t -> lookup (fst st) f = Some o -> lookup (fst st) f' = Some o' -> o = o') ->
  likely_entry lower upper title order st (from, to) = Ok st' ->
  leads st' (tag_repr base) L (t_script t) (t_region t).
Proof.
  intros HS Hb Ht Hu HF HB HL HC H. pose proof HF as (HP & Hs & Hr).
  pose proof (likely_step st from to st' base t HS Hb Ht Hu HP H) as (_ & _ & RG). specialize (RG HF HB).
  unfold likely_entry in H. cbn [fst snd] in H. rewrite Ht in H. cbn [bind] in H. rewrite Hb in H. cbn [bind] in H.
  destruct (ostreq (t_lang base) (Some (lit "und"))) eqn:EU.
  { destruct (t_lang base) as [l|]; [|discriminate]. cbn [ostreq] in EU. apply streq_true in EU. congruence. }
  destruct (settle_new st t) as [st1 i] eqn:E. injection H as H.
  destruct (settle_new_ok st t st1 i HS HP E) as (S1 & V1 & Hi & P1 & M1 & _).
  destruct (settle_exact to t st st1 i HS Ht HF E) as (X1 & X2 & X3).
  set (g := fun t => set_hideboth (hide_like base t) (t_hideboth base)) in *.
  destruct (change_ok st1 i g S1) as (S2 & V2 & O2).
  { intros u. unfold g, hide_like. destruct (t_script base), (t_region base); repeat split. }
  { intros Pu. unfold g. apply (hide_like_ok base) in Pu. apply Pu. }
  pose proof (hide_like_ok base _ P1) as (_ & P2 & L1 & L2 & L3 & _).
  assert (GL : t_lang (g (r_obj (fst st1) i)) = Some L) by (unfold g; cbn [set_hideboth t_lang]; congruence).
  assert (GS : t_script (g (r_obj (fst st1) i)) = t_script t) by (unfold g; cbn [set_hideboth t_script]; congruence).
  assert (GR : t_region (g (r_obj (fst st1) i)) = t_region t) by (unfold g; cbn [set_hideboth t_region]; congruence).
  assert (PG : plain_tag (g (r_obj (fst st1) i))) by exact P2.
  assert (M2 : r_map (fst (change st1 i g)) = r_map (fst st)) by exact M1.
  set (st2 := change st1 i g) in *.
  assert (LK : forall f, lookup (fst st2) f = lookup (fst st) f) by (intros f; unfold lookup; now rewrite M2).
  unfold put in H. destruct (add order (fst st2) i) as [r' ret] eqn:EA. cbn [fst] in H. subst st'.
  pose proof (C17_add_spec order (fst st2) i r' ret HO EA) as SP. cbv zeta in SP. rewrite O2 in SP.
  destruct SP as (F1 & F2 & F3).
  assert (GI : t_lang (r_obj (fst st2) i) = Some L /\ t_script (r_obj (fst st2) i) = t_script t /\ t_region (r_obj (fst st2) i) = t_region t)
    by (rewrite O2; auto).
  assert (NF : forall f, In f (allforms (g (r_obj (fst st1) i))) -> names f t).
  { intros f Hf. apply forms_names in Hf; [|exact PG]. destruct Hf as (L' & s & r & A & B & C & D).
    exists L', s, r. rewrite GS in B. rewrite GR in C. split; [congruence | auto]. }
  (* the short tag is one of the forms *)
  assert (IN : In (tag_repr base) (allforms (g (r_obj (fst st1) i)))).
  { destruct (in_dec (list_eq_dec N.eq_dec) (tag_repr base) (allforms (g (r_obj (fst st1) i)))) as [Hin|Hin]; [exact Hin|].
    exfalso. destruct HB as (B1 & B2 & B3 & B4 & B5).
    apply Hin. apply (plain_forms _ L); [exact PG | exact GL|].
    assert (HH : t_hideboth base = (isNone (t_script base) && isNone (t_region base))%bool) by apply (parsed_flags from base Hb).
    pose proof (hide_like_ok base _ P1) as (_ & _ & _ & _ & _ & H1 & H2 & _).
    exists (t_script base), (t_region base). rewrite GS, GR. unfold shown. split; [|split; [|split]].
    - destruct B2 as [B2|B2]; [right; split; [now apply H1 | exact B2] | left; congruence].
    - destruct B3 as [B3|B3]; [right; split; [now apply H2 | exact B3] | left; congruence].
    - unfold g. cbn [set_hideboth t_hideboth]. rewrite HH.
      destruct (t_script base), (t_region base); cbn [isNone andb]; auto; [left | left | right; left]; discriminate.
    - unfold tag_repr, repr_tags, ext_list, written. rewrite B1, HL, B4, B5. cbn [olist olists app]. now rewrite app_nil_r. }
  unfold leads. cbn [fst].
  destruct F3 as [(_ & _ & Fo & Fl)|(f0 & v & Hf0 & Ev & _ & Hoth & Hv & Hres)].
  - exists i. rewrite (Fl _ IN). split; [reflexivity|]. rewrite Fo. exact GI.
  - destruct (merge_equivalent (r_obj (fst st2) v) (g (r_obj (fst st1) i))) as [m ok] eqn:Em. cbn [fst snd] in *.
    assert (OI : grows (r_obj (fst st2) i) (r_obj r' i)).
    { destruct (Nat.eq_dec i v) as [<-|Hn]; [rewrite Hv; rewrite (surjective_pairing (merge_equivalent _ _)) in Em; injection Em as <- _; apply merge_grows|].
      rewrite Hoth by exact Hn. apply grows_refl. }
    destruct ok; destruct Hres as [-> Hres].
    + assert (EW : lookup r' (tag_repr base) = Some v).
      { rewrite (Hres _ IN), LK. destruct HC as [HN|HC]; [now rewrite HN|].
        destruct (lookup (fst st) (tag_repr base)) as [o|] eqn:Eo; [|reflexivity]. f_equal.
        rewrite LK in Ev. exact (HC _ _ _ _ (NF _ IN) (NF _ Hf0) Eo Ev). }
      exists v. split; [exact EW|]. rewrite Hv.
      destruct (C16_merge_true _ _ _ Em) as (A1 & A2 & A3 & _).
      pose proof (proj1 (C16_merge_iff (r_obj (fst st2) v) (g (r_obj (fst st1) i)))) as MC. rewrite Em in MC.
      destruct (MC eq_refl) as [MC1 MC2]. unfold compatible, first_set in *. rewrite GS in *. rewrite GR in *.
      destruct (S2 f0 v Ev) as (_ & ((LV & HLV & HLVo) & VS & VR & _) & (L4 & s4 & r4 & EL4 & Es4 & Er4 & Ef4)).
      destruct (NF f0 Hf0) as (L5 & s5 & r5 & EL5 & Es5 & Er5 & Ef5).
      pose proof HP as ((LP & HLP & HLPo) & PS & PR & _).
      assert (L4 = L5).
      { apply (written_unique L4 L5 s4 s5 r4 r5); try congruence.
        - intros x Hx. destruct Es4 as [->| ->]; [discriminate | now apply VS].
        - intros x Hx. destruct Es5 as [->| ->]; [discriminate | now apply PS].
        - intros x Hx. destruct Er4 as [->| ->]; [discriminate | now apply VR].
        - intros x Hx. destruct Er5 as [->| ->]; [discriminate | now apply PR]. }
      split; [congruence|]. rewrite A2, A3. split.
      * destruct (t_script (r_obj (fst st2) v)) as [x|]; [|reflexivity]. destruct MC1 as [X|[X|X]]; [discriminate | congruence | exact X].
      * destruct (t_region (r_obj (fst st2) v)) as [x|]; [|reflexivity]. destruct MC2 as [X|[X|X]]; [discriminate | congruence | exact X].
    + exists i. rewrite (Hres _ IN). split; [reflexivity|]. destruct OI as (A1 & A2 & A3). destruct GI as (B1 & B2 & B3).
      split; [congruence|]. split; [rewrite A2 by congruence; exact B2 | rewrite A3 by congruence; exact B3].
Qed.

(** A row of the extras. The short tag becomes a key if it has a script or a region; a row that
    CLDR has confirmed is skipped. *)
Theorem C79_extras st conf from to st' base t :
  sound st -> parsed from = Ok base -> parsed to = Ok t -> conf <> lit "CLDR" -> full_tag t ->
  extras_row lower upper title order st (conf, (from, to)) = Ok st' ->
  sound st' /\ (forall f, registered st f -> registered st' f) /\
  (exists L, t_lang t = Some L /\ leads st' (tag_repr t) L (t_script t) (t_region t)) /\
  (short_for base t -> t_script base <> None \/ t_region base <> None -> registered st' (tag_repr base)).
Proof.
  intros HS Hb Ht Hu HF H. pose proof HF as (HP & Hs & Hr). unfold extras_row in H. cbn [fst snd] in H.
  destruct (streq_spec conf (lit "CLDR")) as [EC|_]; [contradiction|].
  rewrite Hb in H. cbn [bind] in H. rewrite Ht in H. cbn [bind] in H.
  destruct (settle_new st t) as [st1 i] eqn:E. injection H as <-.
  destruct (settle_new_ok st t st1 i HS HP E) as (S1 & V1 & Hi & P1 & _ & _).
  destruct (change_ok st1 i (hide_like base) S1) as (S2 & V2 & O2).
  { intros u. unfold hide_like. destruct (t_script base), (t_region base); repeat split. }
  { intros Pu. apply (hide_like_ok base) in Pu. apply Pu. }
  pose proof (hide_like_ok base _ P1) as (_ & P2 & L1 & L2 & L3 & H1 & H2 & _).
  destruct (put_ok order HO (change st1 i (hide_like base)) i S2) as (S3 & V3 & F3).
  { exact Hi. }
  { rewrite O2. exact P2. }
  rewrite O2 in F3.
  destruct (settle_exact to t st st1 i HS Ht HF E) as (X1 & X2 & X3).
  pose proof HP as ((L & HL & HLo) & HPs & HPr & _).
  assert (GL : t_lang (hide_like base (r_obj (fst st1) i)) = Some L) by congruence.
  assert (GS : t_script (hide_like base (r_obj (fst st1) i)) = t_script t) by congruence.
  assert (GR : t_region (hide_like base (r_obj (fst st1) i)) = t_region t) by congruence.
  split; [exact S3|]. split; [intros f Hf; apply V3, V2, V1, Hf|]. split.
  - exists L. split; [exact HL|].
    assert (RG : registered (put order (change st1 i (hide_like base)) i) (tag_repr t)).
    { apply F3, (plain_forms _ L); [exact P2 | exact GL|]. exists (t_script t), (t_region t). rewrite GS, GR.
      unfold shown. split; [now left|]. split; [now left|]. split; [now left | now apply repr_written]. }
    rewrite (repr_written t L HP HL) in *.
    destruct (t_script t) as [s|]; [|congruence]. destruct (t_region t) as [r|]; [|congruence].
    apply leads_exact; auto.
  - intros (B1 & B2 & B3 & B4 & B5) HN. apply F3, (plain_forms _ L); [exact P2 | exact GL|].
    exists (t_script base), (t_region base). rewrite GS, GR. unfold shown. split; [|split; [|split]].
    + destruct B2 as [B2|B2]; [right; split; [now apply H1 | exact B2] | left; congruence].
    + destruct B3 as [B3|B3]; [right; split; [now apply H2 | exact B3] | left; congruence].
    + tauto.
    + unfold tag_repr, repr_tags, ext_list, written. rewrite B1, HL, B4, B5. cbn [olist olists app]. now rewrite app_nil_r.
Qed.

(** *** Supplemental data *)
(** A listed name: a language of two or three letters, alone or with a script after it; what it
    is parsed as *)
Record listed_name (l L : pystr) (so : option pystr) : Prop := {
  ln_bits : exists b s, bits_of l = b :: olist s /\ len23 b = true /\ L = lower b /\
     so = match s with Some x => Some (title x) | None => None end /\
     (forall x, s = Some x -> length x = 4);
  ln_lang : lang_ok L;
  ln_script : okopt script_ok so
}.
Definition bare_tag (L : pystr) (so rg : option pystr) : tag :=
  mkTag (Some L) so rg None None false false (isNone so) [].

Lemma listed_parse l L so rg : listed_name l L so ->
  parse lower upper title (newtag None None rg None None) l = Ok (bare_tag L so rg).
Proof.
  intros [(b & s & Hb & H23 & -> & -> & H4) _ _]. unfold parse. rewrite Hb. unfold parse_lang. cbn [olist].
  rewrite H23. destruct s as [x|]; cbn [olist].
  - unfold parse_script. rewrite (H4 x eq_refl). cbn [Nat.eqb bind]. reflexivity.
  - reflexivity.
Qed.

Lemma give_script_ok scripts l t :
  (forall s, dget streq scripts l = Some [s] -> script_ok s) -> plain_tag t ->
  grows t (give_script scripts l t) /\ plain_tag (give_script scripts l t) /\
  t_region (give_script scripts l t) = t_region t /\ t_hideregion (give_script scripts l t) = t_hideregion t /\
  t_hideboth (give_script scripts l t) = t_hideboth t /\
  (give_script scripts l t = t \/ t_hidescript (give_script scripts l t) = true).
Proof.
  intros HS HP. unfold give_script. destruct (dget streq scripts l) as [[|s [|s' ss]]|] eqn:E;
    try (split; [apply grows_refl|]; split; [exact HP|]; repeat split; now left).
  destruct HP as (A & B & C & D). split.
  - split; [|split]; destruct (t_script t) eqn:Ets; cbn; try reflexivity; congruence.
  - split; [|repeat split; destruct (t_script t); cbn; auto].
    split; [destruct (t_script t); exact A|]. split; [|destruct (t_script t); auto].
    destruct (t_script t) as [x|] eqn:Ex; cbn [isNone set_hidescript set_script t_script].
    + intros y Hy. rewrite Ex in Hy. exact (B y Hy).
    + intros y Hy. injection Hy as <-. apply HS. reflexivity.
Qed.

(** the region is spelled out in a key *)
Definition spelled (st : rstate) (L : pystr) (rg : pystr) : Prop :=
  exists s, okopt script_ok s /\ registered st (written L s (Some rg)).

Lemma form_full t L rg : plain_tag t -> t_lang t = Some L -> t_region t = Some rg ->
  In (written L (t_script t) (Some rg)) (allforms t).
Proof.
  intros HP HL HR. apply (plain_forms t L); [exact HP | exact HL|]. exists (t_script t), (Some rg).
  unfold shown. split; [now left|]. split; [left; congruence|]. split; [right; left; discriminate | reflexivity].
Qed.

Lemma str_written t L : plain_tag t -> t_lang t = Some L ->
  tag_str t = written L (if t_hidescript t then None else t_script t)
    (if (negb (t_hideregion t) || (negb (t_hideboth t) && t_hidescript t))%bool then t_region t else None).
Proof.
  intros (_ & _ & _ & Hv & He) HL. unfold tag_str, str_tags, ext_list, written. rewrite HL, Hv, He.
  cbn [olist olists app]. rewrite app_nil_r.
  destruct (t_hidescript t); cbn [olist app]; destruct (_ || _)%bool; reflexivity.
Qed.

(** a new tag with the region, put in the registry *)
Lemma new_region st st1 i t L rg : sound st -> plain_tag t -> t_lang t = Some L -> t_region t = Some rg ->
  (lookup (fst st) (tag_str t) = None \/ (t_hideregion t = false \/ (t_hideboth t = false /\ t_hidescript t = true))) ->
  settle_new st t = (st1, i) ->
  sound (put order st1 i) /\ evolves st (put order st1 i) /\ spelled (put order st1 i) L rg.
Proof.
  intros HS HP HL HR HC E. destruct (settle_new_ok st t st1 i HS HP E) as (S1 & V1 & Hi & P1 & _ & X).
  destruct (put_ok order HO st1 i S1 Hi P1) as (S2 & V2 & F2).
  split; [exact S2|]. split; [eapply evolves_trans; eauto|].
  destruct X as [(-> & Hl)|(Hl & _ & G1 & G2 & G3)].
  - destruct HC as [HC|HC]; [congruence|].
    assert (ES : tag_str t = written L (if t_hidescript t then None else t_script t) (Some rg)).
    { rewrite (str_written t L HP HL), HR. destruct HC as [->|[-> ->]]; [reflexivity|].
      cbn [negb andb]. now rewrite orb_true_r. }
    exists (if t_hidescript t then None else t_script t). split.
    + intros x Hx. destruct (t_hidescript t); [discriminate|]. now apply HP in Hx.
    + rewrite <- ES. apply V2. unfold registered. rewrite Hl. discriminate.
  - exists (t_script (r_obj (fst st1) i)). split; [intros x Hx; now apply P1 in Hx|].
    apply F2, form_full; [exact P1 | congruence|]. rewrite G3 by congruence. exact HR.
Qed.

(** a registered tag with the region, put in the registry *)
Lemma old_region st st1 i j L rg : sound st -> i < snd st -> plain_tag (r_obj (fst st) i) ->
  t_lang (r_obj (fst st) i) = Some L -> t_region (r_obj (fst st) i) = Some rg ->
  settle_old st i = (st1, j) ->
  sound (put order st1 j) /\ evolves st (put order st1 j) /\
  ((forall s o, lookup (fst st) (written L s None) = Some o -> o = i) -> spelled (put order st1 j) L rg).
Proof.
  intros HS Hi HP HL HR E. destruct (settle_old_ok st i st1 j HS Hi HP E) as (S1 & V1 & Hj & P1 & M1).
  destruct (put_ok order HO st1 j S1 Hj P1) as (S2 & V2 & F2).
  split; [exact S2|]. split; [eapply evolves_trans; eauto|].
  intros HC.
  assert (GI : grows (r_obj (fst st) i) (r_obj (fst st1) i)) by (apply V1; exact Hi). destruct GI as (G1 & G2 & G3).
  assert (SAME : i = j -> spelled (put order st1 j) L rg).
  { intros <-. exists (t_script (r_obj (fst st1) i)). split; [intros x Hx; now apply P1 in Hx|].
    apply F2, form_full; [exact P1 | congruence|]. rewrite G3 by congruence. exact HR. }
  unfold settle_old in E. destruct st as [r n]. cbn [fst snd] in *.
  destruct (dget streq (r_map r) (tag_str (r_obj r i))) as [k|] eqn:Ek.
  - injection E as <- <-. rewrite (str_written _ L HP HL), HR in Ek.
    destruct (negb (t_hideregion (r_obj r i)) || (negb (t_hideboth (r_obj r i)) && t_hidescript (r_obj r i)))%bool.
    + exists (if t_hidescript (r_obj r i) then None else t_script (r_obj r i)). split.
      * intros x Hx. destruct (t_hidescript (r_obj r i)); [discriminate|]. now apply HP in Hx.
      * apply V2. unfold registered, lookup. cbn [fst]. rewrite Ek. discriminate.
    + apply SAME. symmetry. eapply HC. exact Ek.
  - destruct (analyse rank_bound (view r) (r_obj r i)); injection E as <- <-; now apply SAME.
Qed.

Definition one_owner (st : rstate) (L : pystr) : Prop :=
  forall s s' o o', lookup (fst st) (written L s None) = Some o -> lookup (fst st) (written L s' None) = Some o' -> o = o'.

Lemma supp_step scripts st l L so rg :
  sound st -> listed_name l L so -> region_ok rg ->
  (forall s, dget streq scripts l = Some [s] -> script_ok s) ->
  exists st', supp_lang lower upper title order scripts st (l, [rg]) = Ok st' /\
    sound st' /\ evolves st st' /\ (one_owner st L -> spelled st' L rg).
Proof.
  intros HS HN HR HSc. unfold supp_lang. cbn [fst snd].
  pose proof (listed_parse l L so None HN) as HP0. unfold LangTag. rewrite HP0. cbn [bind].
  pose proof (listed_parse l L so (Some rg) HN) as HP1. rewrite HP1. cbn [bind].
  destruct HN as [_ HL HSo].
  assert (PB : plain_tag (bare_tag L so None)).
  { split; [exists L; auto|]. split; [exact HSo|]. split; [intros x Hx; discriminate | auto]. }
  assert (PR : plain_tag (bare_tag L so (Some rg))).
  { split; [exists L; auto|]. split; [exact HSo|]. split; [intros x Hx; injection Hx as <-; exact HR | auto]. }
  assert (W : tag_str (bare_tag L so None) = written L so None).
  { rewrite (str_written _ L PB eq_refl). reflexivity. }
  assert (FIN : forall st1 i, (sound (put order st1 i) /\ evolves st (put order st1 i) /\ (one_owner st L -> spelled (put order st1 i) L rg)) ->
     exists st', Ok (put order st1 i) = Ok st' /\ sound st' /\ evolves st st' /\ (one_owner st L -> spelled st' L rg)).
  { intros st1 i (A & B & C). eexists. split; [reflexivity|]. split; [exact A|]. split; [exact B | exact C]. }
  (* a new tag with language, script and region *)
  assert (AF : exists st', Ok (let '(st1, i) := settle_new st (give_script scripts l (bare_tag L so (Some rg))) in put order st1 i) = Ok st' /\
     sound st' /\ evolves st st' /\ (one_owner st L -> spelled st' L rg)).
  { destruct (give_script_ok scripts l _ HSc PR) as ((G1 & _) & G2 & G3 & G4 & _).
    destruct (settle_new st (give_script scripts l (bare_tag L so (Some rg)))) as [st1 i] eqn:E.
    apply FIN. assert (NR : sound (put order st1 i) /\ evolves st (put order st1 i) /\ spelled (put order st1 i) L rg); [|tauto].
    eapply new_region; [exact HS | exact G2 | | | |exact E].
    - rewrite G1. reflexivity.
    - rewrite G3. reflexivity.
    - right. left. rewrite G4. reflexivity. }
  rewrite W. destruct (dget streq (r_map (fst st)) (written L so None)) as [i|] eqn:Ei.
  - destruct (HS _ _ Ei) as (Hi & HPi & (L2 & s2 & r2 & EL & Es & Er & EF)).
    assert (LI : t_lang (r_obj (fst st) i) = Some L).
    { destruct HPi as ((L3 & HL3 & HLo3) & S3 & R3 & _). assert (L2 = L3) by congruence. subst L3.
      assert (L = L2); [|congruence].
      apply (written_unique L L2 so s2 None r2); auto.
      - intros x Hx. destruct Es as [->| ->]; [discriminate | now apply S3].
      - intros x Hx. discriminate.
      - intros x Hx. destruct Er as [->| ->]; [discriminate | now apply R3]. }
    assert (OLD : forall g, (forall t, grows t (g t)) -> (plain_tag (r_obj (fst st) i) -> plain_tag (g (r_obj (fst st) i))) ->
      t_region (g (r_obj (fst st) i)) = Some rg ->
      exists st', (let '(st1, j) := settle_old (change st i g) i in Ok (put order st1 j)) = Ok st' /\
        sound st' /\ evolves st st' /\ (one_owner st L -> spelled st' L rg)).
    { intros g Hg1 Hg2 Hg3. destruct (change_ok st i g HS Hg1 Hg2) as (S2 & V2 & O2).
      destruct (settle_old (change st i g) i) as [st1 j] eqn:E.
      destruct (old_region (change st i g) st1 i j L rg) as (A & B & C); auto.
      - rewrite O2. auto.
      - rewrite O2. destruct (Hg1 (r_obj (fst st) i)) as (X & _). congruence.
      - rewrite O2. exact Hg3.
      - apply FIN. split; [exact A|]. split; [eapply evolves_trans; eauto|].
        intros HC. apply C. intros s o Ho. exact (HC s so o i Ho Ei). }
    assert (GS : forall t, grows t (give_script scripts l t)).
    { intros t. unfold give_script. destruct (dget streq scripts l) as [[|s [|s' ss]]|]; try apply grows_refl.
      split; [|split]; destruct (t_script t) eqn:Ets; cbn; try reflexivity; congruence. }
    destruct (t_region (r_obj (fst st) i)) as [rg'|] eqn:Erg.
    + destruct (streq_spec rg' rg) as [->|_]; [|exact AF].
      apply OLD; [exact GS | intros _; now apply give_script_ok|].
      destruct (give_script_ok scripts l _ HSc HPi) as (_ & _ & X & _). congruence.
    + (* no region yet *)
      set (g := fun t => give_script scripts l (give_region rg t)).
      destruct (give_script_ok scripts l (give_region rg (r_obj (fst st) i)) HSc) as (_ & PX & RX & _).
      { destruct HPi as (A & B & C & D). split; [exact A|]. split; [exact B|]. split; [|exact D].
        intros x Hx. injection Hx as <-. exact HR. }
      destruct (change_ok st i (fun t => if isNone (t_region t) then g t else t) HS) as (S2 & V2 & O2).
      { intros t. destruct (t_region t) eqn:Et; cbn [isNone]; [apply grows_refl|].
        unfold g. eapply grows_trans; [|apply GS]. split; [reflexivity|]. split; [reflexivity|]. congruence. }
      { intros _. rewrite Erg. cbn [isNone]. exact PX. }
      assert (EC : change st i (fun t => if isNone (t_region t) then g t else t) = change st i g).
      { unfold change. now rewrite Erg. }
      rewrite EC in *. rewrite Erg in O2. cbn [isNone] in O2.
      destruct (settle_old (change st i g) i) as [st1 j] eqn:E.
      destruct (old_region (change st i g) st1 i j L rg) as (A & B & C); auto.
      * rewrite O2. exact PX.
      * rewrite O2. unfold g. destruct (GS (give_region rg (r_obj (fst st) i))) as (X & _). rewrite X. exact LI.
      * rewrite O2. exact RX.
      * apply FIN. split; [exact A|]. split; [eapply evolves_trans; eauto|].
        intros HC. apply C. intros s o Ho. exact (HC s so o i Ho Ei).
  - (* not registered *)
    change (t_region (bare_tag L so None)) with (@None pystr). cbv iota.
    assert (PG : plain_tag (give_region rg (bare_tag L so None))).
    { split; [exists L; auto|]. split; [exact HSo|]. split; [intros x Hx; injection Hx as <-; exact HR | auto]. }
    destruct (give_script_ok scripts l _ HSc PG) as ((G1 & _) & G2 & G3 & G4 & G5 & G6).
    destruct (settle_new st (give_script scripts l (give_region rg (bare_tag L so None)))) as [st1 i] eqn:E.
    apply FIN. assert (NR : sound (put order st1 i) /\ evolves st (put order st1 i) /\ spelled (put order st1 i) L rg); [|tauto].
    eapply new_region; [exact HS | exact G2 | | | |exact E].
    + rewrite G1. reflexivity.
    + rewrite G3. reflexivity.
    + destruct so as [s|].
      * destruct G6 as [G6|G6]; [|right; right; split; [rewrite G5; reflexivity | exact G6]].
        left. rewrite G6. unfold lookup. rewrite (str_written _ L PG eq_refl). exact Ei.
      * left. unfold lookup. rewrite (str_written _ L G2) by (rewrite G1; reflexivity).
        rewrite G3, G4, G5. cbn [give_region set_hideregion set_region t_hideregion t_hideboth bare_tag isNone negb orb andb].
        replace (if t_hidescript _ then None else t_script _) with (@None pystr); [exact Ei|].
        destruct G6 as [G6|G6]; rewrite G6; reflexivity.
Qed.

(** One listed language, for any registry of ordinary tags in which all the registered forms of
    the language without a region lead to one tag: its only region is then spelled out in a key,
    whatever was registered before. *)
Theorem C79_only_region scripts st l L so rg :
  sound st -> listed_name l L so -> region_ok rg ->
  (forall s, dget streq scripts l = Some [s] -> script_ok s) -> one_owner st L ->
  exists st', supp_lang lower upper title order scripts st (l, [rg]) = Ok st' /\
    sound st' /\ (forall f, registered st f -> registered st' f) /\ spelled st' L rg.
Proof.
  intros HS HN HR HSc HC. destruct (supp_step scripts st l L so rg HS HN HR HSc) as (st' & A & B & C & D).
  exists st'. split; [exact A|]. split; [exact B|]. split; [apply C | now apply D].
Qed.

(** and so it stays, to the end of all the reading: a key that spells out a region leads to a
    tag of the language with that region *)
Theorem C79_spelled st L rg : sound st -> lang_ok L -> region_ok rg -> spelled st L rg ->
  exists f i, lookup (fst st) f = Some i /\ t_lang (r_obj (fst st) i) = Some L /\ t_region (r_obj (fst st) i) = Some rg.
Proof.
  intros HS HL HR (s & Hs & Hreg). unfold registered in Hreg.
  destruct (lookup (fst st) (written L s (Some rg))) as [i|] eqn:E; [|congruence].
  exists (written L s (Some rg)), i. split; [exact E|].
  destruct (HS _ _ E) as (_ & ((L3 & HL3 & HLo3) & S3 & R3 & _) & (L2 & s2 & r2 & EL & Es & Er & EF)).
  assert (L2 = L3) by congruence. subst L3.
  destruct (written_unique L L2 s s2 (Some rg) r2) as (X1 & X2 & X3).
  - exact HL.
  - exact HLo3.
  - exact Hs.
  - intros x Hx. destruct Es as [Es|Es]; rewrite Es in Hx; [discriminate | now apply S3].
  - intros x Hx. injection Hx as <-. exact HR.
  - intros x Hx. destruct Er as [Er|Er]; rewrite Er in Hx; [discriminate | now apply R3].
  - exact EF.
  - subst. split; [exact EL|]. destruct Er as [Er|Er]; [discriminate | now symmetry].
Qed.

(** What is listed: the territories of a language, in the order of the file, and its scripts. *)
Definition listed_in (ps : list (pystr * pystr)) (l : pystr) : list pystr :=
  map fst (filter (fun p => streq (snd p) l) ps).
Definition scripts_of (ls : list (pystr * option pystr)) (l : pystr) : list pystr :=
  flat_map (fun p => if streq (fst p) l then match snd p with Some s => split_on 32%N s | None => [] end else []) ls.

Theorem C79_listing ls ps l :
  dget streq (lang_regions ps) l = match listed_in ps l with [] => None | rs => Some rs end /\
  NoDup (dkeys (lang_regions ps)) /\
  (forall s, dget streq (lang_scripts ls) l = Some [s] <-> scripts_of ls l = [s]).
Proof.
  split; [|split].
  - unfold lang_regions, listed_in. induction ps as [|p ps IH] using rev_ind; [reflexivity|].
    rewrite fold_left_app. cbn [fold_left]. rewrite (dget_dset streq streq_spec).
    rewrite filter_app, map_app. cbn [filter].
    destruct p as [k v]; cbn [fst snd]. destruct (streq_spec l v) as [E|Hn].
    + subst v. rewrite streq_refl. cbn [map fst]. rewrite IH.
      destruct (map fst (filter (fun p0 => streq (snd p0) l) ps)); reflexivity.
    + destruct (streq_spec v l) as [E|_]; [congruence|]. cbn [map]. rewrite app_nil_r. exact IH.
  - unfold lang_regions. induction ps as [|p ps IH] using rev_ind; [constructor|].
    rewrite fold_left_app. cbn [fold_left]. apply (dset_NoDup streq streq_spec). exact IH.
  - intros s. assert (G : match dget streq (lang_scripts ls) l with Some x => x | None => [] end = scripts_of ls l).
    { unfold lang_scripts, scripts_of. induction ls as [|p ls IH] using rev_ind; [reflexivity|].
      rewrite fold_left_app, flat_map_app. cbn [fold_left flat_map]. rewrite app_nil_r, <- IH.
      destruct p as [k [x|]]; cbn [fst snd].
      - rewrite (dget_dset streq streq_spec). destruct (streq_spec l k) as [->|Hn].
        + rewrite streq_refl. reflexivity.
        + destruct (streq_spec k l) as [->|_]; [congruence|]. now rewrite app_nil_r.
      - destruct (streq k l); now rewrite app_nil_r. }
    rewrite <- G. destruct (dget streq (lang_scripts ls) l) as [x|].
    + split; [intros H; now injection H as -> | intros ->; reflexivity].
    + split; discriminate.
Qed.

(** Reading the whole of the supplemental data into any registry of ordinary tags: it does not
    raise, no key is lost, and every key is still a form of its tag. *)
Theorem C79_supplemental ls ps st :
  sound st ->
  (forall l rg, listed_in ps l = [rg] -> region_ok rg /\ (exists L so, listed_name l L so) /\
     forall s, scripts_of ls l = [s] -> script_ok s) ->
  exists st', read_supplemental lower upper title order st ls ps = Ok st' /\
    sound st' /\ (forall f, registered st f -> registered st' f).
Proof.
  intros HS HD. unfold read_supplemental.
  assert (HK : forall l rs, In (l, rs) (lang_regions ps) -> listed_in ps l = rs /\ rs <> []).
  { intros l rs Hin. destruct (C79_listing ls ps l) as (H1 & H2 & _).
    rewrite (dget_NoDup_In streq streq_spec _ _ rs H2 Hin) in H1.
    destruct (listed_in ps l); [discriminate|]. injection H1 as ->. split; [reflexivity | discriminate]. }
  revert st HS HK. generalize (lang_regions ps) as es. induction es as [|[l rs] es IH]; intros st HS HK.
  - exists st. auto.
  - cbn [read_each]. destruct (HK l rs (or_introl eq_refl)) as [HL HN].
    assert (ST : exists st1, supp_lang lower upper title order (lang_scripts ls) st (l, rs) = Ok st1 /\ sound st1 /\ evolves st st1).
    { destruct rs as [|rg [|r2 rs]]; [congruence| |].
      - destruct (HD l rg HL) as (A & (L & so & B) & C).
        destruct (supp_step (lang_scripts ls) st l L so rg HS B A) as (st1 & D & E & F & _).
        + intros s Hs. apply C. now apply (C79_listing ls ps l).
        + eauto.
      - exists st. split; [reflexivity|]. split; [exact HS | apply evolves_refl]. }
    destruct ST as (st1 & E1 & S1 & V1). rewrite E1. cbn [bind].
    destruct (IH st1 S1) as (st' & E2 & S2 & K2).
    { intros l' rs' Hin. apply HK. now right. }
    exists st'. split; [exact E2|]. split; [exact S2|]. intros f Hf. apply K2, V1, Hf.
Qed.
End Claims.

(** Whatever is read, also tags that are not ordinary, no key is ever lost. *)
Theorem C79_keys_kept lower upper title order st st' es rows ls ps :
  set_order order ->
  read_likely lower upper title order st es = Ok st' \/
  read_extras lower upper title order st rows = Ok st' \/
  read_supplemental lower upper title order st ls ps = Ok st' ->
  forall f, registered st f -> registered st' f.
Proof.
  intros HO.
  assert (P : forall s i, (forall f, registered s f -> registered (put order s i) f)).
  { intros [r n] i f Hf. unfold put, registered in *. cbn [fst snd] in *.
    destruct (add order r i) as [r' ret] eqn:E. apply (C17_history_keeps_keys r r'); [|exact Hf].
    apply rt_step. econstructor; eauto. }
  assert (N1 : forall s t, let '(s1, i) := settle_new s t in forall f, registered s f -> registered s1 f).
  { intros [r n] t. unfold settle_new. destruct (dget streq (r_map r) (tag_str t)); [auto|].
    destruct (analyse rank_bound (view r) t); intros f Hf; exact Hf. }
  assert (O1 : forall s i, let '(s1, j) := settle_old s i in forall f, registered s f -> registered s1 f).
  { intros [r n] i. unfold settle_old. destruct (dget streq (r_map r) (tag_str (r_obj r i))); [auto|].
    destruct (analyse rank_bound (view r) (r_obj r i)); intros f Hf; exact Hf. }
  assert (EACH : forall A (step : rstate -> A -> res rstate),
    (forall s e s', step s e = Ok s' -> forall f, registered s f -> registered s' f) ->
    forall l s s', read_each step s l = Ok s' -> forall f, registered s f -> registered s' f).
  { intros A step Hstep. induction l as [|e l IH]; intros s s' H f Hf; cbn [read_each] in H; [injection H as <-; exact Hf|].
    destruct (step s e) as [s1|] eqn:E; [|discriminate]. cbn [bind] in H. eapply IH; [exact H|]. eapply Hstep; eauto. }
  assert (NEW : forall s t s' f, Ok (let '(s1, i) := settle_new s t in put order s1 i) = Ok s' -> registered s f -> registered s' f).
  { intros s t s' f H Hf. specialize (N1 s t). destruct (settle_new s t) as [s1 i]. injection H as <-. now apply P, N1. }
  assert (OLD : forall s i g s' f, (let '(s1, j) := settle_old (change s i g) i in Ok (put order s1 j)) = Ok s' -> registered s f -> registered s' f).
  { intros s i g s' f H Hf. specialize (O1 (change s i g) i). destruct (settle_old (change s i g) i) as [s1 j]. injection H as <-. apply P, O1. exact Hf. }
  intros [H|[H|H]]; revert H; apply EACH.
  - intros s [from to] s' H f Hf. unfold likely_entry in H. cbn [fst snd] in H.
    destruct (LangTag lower upper title to) as [t|]; [|discriminate]. cbn [bind] in H.
    destruct (LangTag lower upper title from) as [b|]; [|discriminate]. cbn [bind] in H.
    destruct (ostreq (t_lang b) (Some (lit "und"))); [injection H as <-; exact Hf|].
    specialize (N1 s t). destruct (settle_new s t) as [s1 i]. injection H as <-. apply P. apply N1 in Hf. exact Hf.
  - intros s [c [from to]] s' H f Hf. unfold extras_row in H. cbn [fst snd] in H.
    destruct (streq c (lit "CLDR")); [injection H as <-; exact Hf|].
    destruct (LangTag lower upper title from) as [b|]; [|discriminate]. cbn [bind] in H.
    destruct (LangTag lower upper title to) as [t|]; [|discriminate]. cbn [bind] in H.
    specialize (N1 s t). destruct (settle_new s t) as [s1 i]. injection H as <-. apply P. apply N1 in Hf. exact Hf.
  - intros s [l rs] s' H f Hf. unfold supp_lang in H. cbn [fst snd] in H.
    destruct rs as [|rg [|r2 rs]]; [discriminate| |injection H as <-; exact Hf].
    destruct (LangTag lower upper title l) as [t|]; [|discriminate]. cbn [bind] in H.
    destruct (dget streq (r_map (fst s)) (tag_str t)) as [i|].
    + destruct (t_region (r_obj (fst s) i)) as [rg'|].
      * destruct (streq rg' rg); [exact (OLD _ _ _ _ _ H Hf)|].
        destruct (parse lower upper title _ l) as [t1|]; [|discriminate]. cbn [bind] in H. exact (NEW _ _ _ _ H Hf).
      * exact (OLD _ _ _ _ _ H Hf).
    + destruct (t_region t) as [rg'|].
      * destruct (streq rg' rg); [exact (NEW _ _ _ _ H Hf)|].
        destruct (parse lower upper title _ l) as [t1|]; [|discriminate]. cbn [bind] in H. exact (NEW _ _ _ _ H Hf).
      * exact (NEW _ _ _ _ H Hf).
Qed.

(** ** Examples and refutations *)
(** the registry with the given objects, each under its forms *)
Definition reg_of (ts : list tag) : rstate :=
  fold_left (fun st t => put (fun l => l) (mkReg (r_map (fst st)) (upd (r_obj (fst st)) (snd st) t), S (snd st)) (snd st))
    ts (mkReg [] (fun _ => newtag None None None None None), 0).
Definition known (st : rstate) (f : pystr) : option pystr :=
  match lookup (fst st) f with Some i => Some (tag_repr (r_obj (fst st) i)) | None => None end.
Definition ex_iana : rstate :=
  reg_of [mkTag (Some (lit "aa")) None None None None false false true [];
          mkTag (Some (lit "ab")) (Some (lit "Cyrl")) None None None true false true []].

Definition got (x : res rstate) : rstate := match x with Ok s => s | Raise _ => reg_of [] end.
Lemma got_ok x : match x with Ok _ => true | Raise _ => false end = true -> x = Ok (got x).
Proof. destruct x; [reflexivity | discriminate]. Qed.

Example C79_example :
  sound ex_iana /\
  (exists st', read_likely a_lower a_upper a_title (fun l => l) ex_iana
      [(lit "aa", lit "aa_Latn_ET"); (lit "und", lit "en_Latn_US"); (lit "ab", lit "ab_Cyrl_GE"); (lit "ab_TR", lit "ab_Latn_TR")] = Ok st' /\
    known st' (lit "aa") = Some (lit "aa-Latn-ET") /\ known st' (lit "aa-ET") = Some (lit "aa-Latn-ET") /\
    known st' (lit "ab") = Some (lit "ab-Cyrl-GE") /\ known st' (lit "ab-TR") = Some (lit "ab-Latn-TR") /\
    known st' (lit "en") = None) /\
  one_owner ex_iana (lit "ab") /\
  (exists st', read_supplemental a_lower a_upper a_title (fun l => l) ex_iana
      [(lit "aa", Some (lit "Latn")); (lit "ab", Some (lit "Cyrl"))]
      [(lit "ET", lit "aa"); (lit "GE", lit "ab"); (lit "GE", lit "ka"); (lit "DJ", lit "aa")] = Ok st' /\
    known st' (lit "aa") = Some (lit "aa") /\ known st' (lit "ab") = Some (lit "ab-Cyrl-GE") /\
    known st' (lit "ka") = Some (lit "ka-GE")).
Proof.
  assert (O0 : r_obj (fst ex_iana) 0 = mkTag (Some (lit "aa")) None None None None false false true []) by (vm_compute; reflexivity).
  assert (O1 : r_obj (fst ex_iana) 1 = mkTag (Some (lit "ab")) (Some (lit "Cyrl")) None None None true false true []) by (vm_compute; reflexivity).
  assert (NX : snd ex_iana = 2) by (vm_compute; reflexivity).
  assert (K : dkeys (r_map (fst ex_iana)) = [lit "aa"; lit "ab"; lit "ab-Cyrl"]) by (vm_compute; reflexivity).
  assert (KM : r_map (fst ex_iana) = [(lit "aa", 0); (lit "ab", 1); (lit "ab-Cyrl", 1)]) by (vm_compute; reflexivity).
  split; [|split; [|split]].
  - intros f i Hf. unfold lookup in Hf. apply (dget_In streq streq_spec) in Hf. rewrite KM in Hf.
    assert (P0 : plain_tag (r_obj (fst ex_iana) 0)).
    { rewrite O0. split; [exists (lit "aa"); split; [reflexivity|]; exists (lit "aa"), []; split; [reflexivity|]; split; [discriminate | constructor]|].
      split; [intros x Hx; discriminate|]. split; [intros x Hx; discriminate|]. split; reflexivity. }
    assert (P1 : plain_tag (r_obj (fst ex_iana) 1)).
    { rewrite O1. split; [exists (lit "ab"); split; [reflexivity|]; exists (lit "ab"), []; split; [reflexivity|]; split; [discriminate | constructor]|].
      split; [|split; [intros x Hx; discriminate|]; split; reflexivity].
      intros x Hx. injection Hx as <-. split; [reflexivity|]. intros H. cbn in H. repeat (destruct H as [H|H]; [discriminate|]). exact H. }
    rewrite O0 in P0. rewrite O1 in P1.
    destruct Hf as [Hf|[Hf|[Hf|[]]]]; injection Hf as <- <-; rewrite ?O0, ?O1, NX.
    + split; [lia|]. split; [exact P0|]. exists (lit "aa"), None, None. repeat split; auto.
    + split; [lia|]. split; [exact P1|]. exists (lit "ab"), None, None. repeat split; auto.
    + split; [lia|]. split; [exact P1|]. exists (lit "ab"), (Some (lit "Cyrl")), None. repeat split; auto.
  - eexists. split; [apply got_ok; vm_compute; reflexivity|]. repeat (split; [vm_compute; reflexivity|]). vm_compute; reflexivity.
  - intros s s' o o' H1 H2. unfold lookup in *. apply (dget_In streq streq_spec) in H1. apply (dget_In streq streq_spec) in H2.
    rewrite KM in H1, H2.
    assert (N0 : forall s o, In (written (lit "ab") s None, o) [(lit "aa", 0); (lit "ab", 1); (lit "ab-Cyrl", 1)] -> o = 1).
    { intros x k [H|[H|[H|[]]]]; injection H as Hw <-; try reflexivity. exfalso. destruct x; discriminate Hw. }
    now rewrite (N0 _ _ H1), (N0 _ _ H2).
  - eexists. split; [apply got_ok; vm_compute; reflexivity|]. repeat (split; [vm_compute; reflexivity|]). vm_compute; reflexivity.
Qed.

(** Without one common owner the short tag need not lead to its full tag: here "aa" and "aa-ET"
    have been registered apart, "aa-ET" takes the full tag in and "aa" stays bare. *)
Theorem C79_from_refuted :
  exists st st', sound st /\
    likely_entry a_lower a_upper a_title (fun l => l) st (lit "aa", lit "aa_Latn_ET") = Ok st' /\
    known st' (lit "aa-ET") = Some (lit "aa-Latn-ET") /\ known st' (lit "aa") = Some (lit "aa").
Proof.
  exists (reg_of [mkTag (Some (lit "aa")) None None None None false false true [];
                  mkTag (Some (lit "aa")) None (Some (lit "ET")) None None false false false []]).
  eexists. split; [|split; [apply got_ok; vm_compute; reflexivity|]; split; vm_compute; reflexivity].
  intros f i Hf. unfold lookup in Hf. apply (dget_In streq streq_spec) in Hf.
  change (In (f, i) [(lit "aa", 0); (lit "aa-ET", 1)]) in Hf.
  assert (LA : lang_ok (lit "aa")) by (exists (lit "aa"), []; split; [reflexivity|]; split; [discriminate | constructor]).
  destruct Hf as [Hf|[Hf|[]]]; injection Hf as <- <-.
  - split; [cbn; lia|]. split; [split; [exists (lit "aa"); split; [reflexivity | exact LA]|]; split; [intros x Hx; discriminate|]; split; [intros x Hx; discriminate|]; split; reflexivity|].
    exists (lit "aa"), None, None. repeat split; auto.
  - split; [cbn; lia|]. split.
    + split; [exists (lit "aa"); split; [reflexivity | exact LA]|]. split; [intros x Hx; discriminate|]. split; [|split; reflexivity].
      intros x Hx. injection Hx as <-. split; [|split; [discriminate | left; reflexivity]].
      intros H. cbn in H. repeat (destruct H as [H|H]; [discriminate|]). exact H.
    + exists (lit "aa"), None, (Some (lit "ET")). repeat split; auto.
Qed.

(** A row of the extras for a bare language does not make that language a key: unlike the
    reader of CLDR's file it does not say that script and region may both be left out. *)
Theorem C79_extras_refuted :
  exists st', extras_row a_lower a_upper a_title (fun l => l) (reg_of []) (lit "SIL", (lit "aa", lit "aa_Latn_ET")) = Ok st' /\
    known st' (lit "aa-Latn-ET") = Some (lit "aa-Latn-ET") /\ known st' (lit "aa") = None.
Proof. eexists. split; [apply got_ok; vm_compute; reflexivity|]. split; vm_compute; reflexivity. Qed.

