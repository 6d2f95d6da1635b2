(** Proofs about the writer: its text lexes to the events of the tree. *)
From Coq Require Import String.
From Verif Require Import Py PyFacts M_LdmlBase M_TreeBuilder M_Serialize S_Xml
  T_LdmlBase T_LdmlHash T_TreeBuilder.
Local Open Scope list_scope.

Lemma lex_app st a b :
  lex st (a ++ b) =
  match lex st a with
  | None => None
  | Some (st1, e1) =>
      match lex st1 b with
      | None => None
      | Some (st2, e2) => Some (st2, e1 ++ e2)
      end
  end.
Proof.
  revert st. induction a as [|c a IH]; intro st; cbn [lex app].
  - destruct (lex st b) as [[? ?]|]; reflexivity.
  - destruct (lex1 st c) as [[st1 e1]|]; [|reflexivity]. rewrite IH.
    destruct (lex st1 a) as [[st2 e2]|]; [|reflexivity].
    destruct (lex st2 b) as [[st3 e3]|]; [|reflexivity]. now rewrite app_assoc.
Qed.
Lemma lex_app_ok st a b st1 e1 st2 e2 :
  lex st a = Some (st1, e1) -> lex st1 b = Some (st2, e2) -> lex st (a ++ b) = Some (st2, e1 ++ e2).
Proof. intros H1 H2. now rewrite lex_app, H1, H2. Qed.
Lemma lex_app_ok0 st a b st1 st2 e2 :
  lex st a = Some (st1, []) -> lex st1 b = Some (st2, e2) -> lex st (a ++ b) = Some (st2, e2).
Proof. intros H1 H2. now rewrite lex_app, H1, H2. Qed.

(** no carriage return survives the lexer *)
Lemma lex_no_cr st s r : lex st s = Some r -> ~ In 13%N s.
Proof.
  revert st r. induction s as [|c s IH]; intros st r H; [intros []|]. cbn [lex] in H.
  destruct (lex1 st c) as [[st1 e1]|] eqn:E; [|discriminate].
  destruct (lex st1 s) as [[st2 e2]|] eqn:E2; [|discriminate].
  intros [->|Hin]; [|now apply (IH _ _ E2)]. unfold lex1 in E. discriminate.
Qed.
Lemma eol_id s : ~ In 13%N s -> eol s = s.
Proof.
  induction s as [|c s IH]; [reflexivity|]. intro H. cbn [In] in H.
  assert (c <> 13%N) as Hc by tauto. specialize (IH ltac:(tauto)).
  transitivity ((if N.eqb c 13 then 10%N else c) :: eol s).
  - cbn [eol]. destruct c as [|p]; [reflexivity|].
    do 4 (destruct p as [p|p|]; try reflexivity). congruence.
  - rewrite IH. destruct (N.eqb_spec c 13); congruence.
Qed.

Definition chars (s : pystr) : list event := map (fun c => EData [c]) s.
Definition char_items (s : pystr) : list item := map (fun c => Data [c]) s.
Lemma chars_items s : flat_map item_events (char_items s) = chars s.
Proof.
  induction s as [|c s IH]; [reflexivity|].
  change ([EData [c]] ++ flat_map item_events (char_items s) = [EData [c]] ++ chars s). now rewrite IH.
Qed.
Lemma chars_app a b : chars (a ++ b) = chars a ++ chars b.
Proof. apply map_app. Qed.

(** ** Text and values *)
Definition good_text (s : pystr) : Prop := Forall (fun c => xml_char c = true) s.
Definition good_value (s : pystr) : Prop :=
  Forall (fun c => xml_char c = true /\ c <> 9%N /\ c <> 10%N) s.
Definition good_local (s : pystr) : Prop :=
  Forall (fun c => xml_char c = true /\ name_char c = true) s.

Lemma good_text_indent ind s : good_text ind -> good_text s -> good_text (indent_lines ind s).
Proof.
  unfold good_text, indent_lines. rewrite !Forall_forall. intros Hi Hs c Hc.
  apply in_flat_map in Hc as (x & Hx & Hc). destruct (N.eqb_spec x 10).
  - destruct Hc as [<-|Hc]; auto.
  - destruct Hc as [<-|[]]; auto.
Qed.

Lemma lex_protected_text s : good_text s ->
  lex LText (protect elementprotect s) = Some (LText, chars s).
Proof.
  induction 1 as [|c s Hc Hs IH]; [reflexivity|].
  change (protect elementprotect (c :: s))
    with (match dget N.eqb elementprotect c with Some e => e | None => [c] end ++ protect elementprotect s).
  change (chars (c :: s)) with ([EData [c]] ++ chars s).
  eapply lex_app_ok; [|exact IH].
  cbn [elementprotect dget].
  destruct (N.eqb_spec c 38); [subst; reflexivity|].
  destruct (N.eqb_spec c 60); [subst; reflexivity|].
  destruct (N.eqb_spec c 62); [subst; reflexivity|].
  cbn [lex]. unfold lex1. rewrite Hc. cbn [negb].
  destruct (N.eqb_spec c 60); [congruence|]. destruct (N.eqb_spec c 38); [congruence|]. reflexivity.
Qed.
Lemma lex_blank s : Forall (fun c => c = 9%N \/ c = 10%N) s -> lex LText s = Some (LText, chars s).
Proof.
  induction 1 as [|c s Hc Hs IH]; [reflexivity|]. cbn [lex].
  destruct Hc as [-> | ->]; cbn; now rewrite IH.
Qed.
Lemma lex_protected_value name a an s : good_value s -> forall v,
  lex (LAttVal name a an v) (protect attribprotect s) = Some (LAttVal name a an (v ++ s), []).
Proof.
  induction 1 as [|c s (Hc & H9 & H10) Hs IH]; intro v; [now rewrite app_nil_r|].
  change (protect attribprotect (c :: s))
    with (match dget N.eqb attribprotect c with Some e => e | None => [c] end ++ protect attribprotect s).
  replace (v ++ c :: s) with ((v ++ [c]) ++ s) by (now rewrite <- app_assoc).
  eapply lex_app_ok0; [|apply IH].
  cbn [attribprotect elementprotect app dget].
  destruct (N.eqb_spec c 38); [subst; reflexivity|].
  destruct (N.eqb_spec c 60); [subst; reflexivity|].
  destruct (N.eqb_spec c 62); [subst; reflexivity|].
  destruct (N.eqb_spec c 34); [subst; reflexivity|].
  destruct (N.eqb_spec c 39); [subst; reflexivity|].
  cbn [lex]. unfold lex1. rewrite Hc. cbn [negb].
  destruct (N.eqb_spec c 34); [congruence|]. destruct (N.eqb_spec c 38); [congruence|].
  destruct (N.eqb_spec c 60); [congruence|].
  replace (if is_space c then 32%N else c) with c; [reflexivity|].
  unfold is_space, inchars. cbn [existsb].
  destruct (N.eqb_spec c 9); [congruence|]. destruct (N.eqb_spec c 10); [congruence|].
  destruct (N.eqb_spec c 32); [cbn; congruence|reflexivity].
Qed.

(** ** Names *)
Lemma name_char_spec c : name_char c = true -> is_space c = false /\ c <> 47%N /\ c <> 63%N
  /\ c <> 33%N /\ c <> 62%N /\ c <> 61%N /\ c <> 60%N.
Proof.
  unfold name_char. intro H. apply andb_true_iff in H as [H1 H2].
  apply negb_true_iff in H1, H2. split; [assumption|].
  apply inchars_false in H2. repeat split; intros ->; apply H2; cbn; tauto.
Qed.
Lemma lex_open nm s : good_local s -> lex (LOpen nm) s = Some (LOpen (nm ++ s), []).
Proof.
  intro H. revert nm. induction H as [|c s (Hc & Hn) Hs IH]; intro nm; [now rewrite app_nil_r|].
  cbn [lex]. unfold lex1. rewrite Hc, Hn. cbn [negb]. rewrite IH. now rewrite <- app_assoc.
Qed.
Lemma lex_lt s : good_local s -> s <> [] -> lex LLt s = Some (LOpen s, []).
Proof.
  intros H Hne. destruct H as [|c s (Hc & Hn) Hs]; [congruence|].
  cbn [lex]. unfold lex1. rewrite Hc. cbn [negb].
  destruct (name_char_spec c Hn) as (_ & H1 & H2 & H3 & _).
  destruct (N.eqb_spec c 47); [congruence|]. destruct (N.eqb_spec c 63); [congruence|].
  destruct (N.eqb_spec c 33); [congruence|]. rewrite Hn.
  rewrite (lex_open [c] s Hs). reflexivity.
Qed.
Lemma lex_close nm s : good_local s -> lex (LClose nm) s = Some (LClose (nm ++ s), []).
Proof.
  intro H. revert nm. induction H as [|c s (Hc & Hn) Hs IH]; intro nm; [now rewrite app_nil_r|].
  cbn [lex]. unfold lex1. rewrite Hc. cbn [negb].
  destruct (name_char_spec c Hn) as (_ & _ & _ & _ & H & _).
  destruct (N.eqb_spec c 62); [congruence|]. rewrite Hn, IH. now rewrite <- app_assoc.
Qed.
Lemma lex_attname name a nm s : good_local s ->
  lex (LAttName name a nm) s = Some (LAttName name a (nm ++ s), []).
Proof.
  intro H. revert nm. induction H as [|c s (Hc & Hn) Hs IH]; intro nm; [now rewrite app_nil_r|].
  cbn [lex]. unfold lex1. rewrite Hc. cbn [negb].
  destruct (name_char_spec c Hn) as (_ & _ & _ & _ & _ & H & _).
  destruct (N.eqb_spec c 61); [congruence|]. rewrite Hn, IH. now rewrite <- app_assoc.
Qed.
Lemma lex_attrs_name name a s : good_local s -> s <> [] ->
  lex (LAttrs name a) s = Some (LAttName name a s, []).
Proof.
  intros H Hne. destruct H as [|c s (Hc & Hn) Hs]; [congruence|].
  cbn [lex]. unfold lex1. rewrite Hc. cbn [negb].
  destruct (name_char_spec c Hn) as (H0 & H1 & H2 & H3 & H4 & _). rewrite H0.
  destruct (N.eqb_spec c 62); [congruence|]. destruct (N.eqb_spec c 47); [congruence|]. rewrite Hn.
  rewrite (lex_attname name a [c] s Hs). reflexivity.
Qed.

(** one attribute: after the space *)
Definition att_text (k v : pystr) : pystr :=
  lit " " ++ k ++ lit "=""" ++ protect attribprotect v ++ lit """".
Definition atts_text (l : atts) : pystr := flat_map (fun kv => att_text (fst kv) (snd kv)) l.

Lemma lex_att name st a k v :
  (st = LOpen name /\ a = [] \/ st = LAttrs name a) ->
  good_local k -> k <> [] -> good_value v -> ~ In k (map fst a) ->
  lex st (att_text k v) = Some (LAttrs name (a ++ [(k, v)]), []).
Proof.
  intros Hst Hk Hne Hv Hn. unfold att_text.
  assert (lex st (lit " ") = Some (LAttrs name a, [])) as E1.
  { destruct Hst as [[-> ->]| ->]; reflexivity. }
  eapply lex_app_ok0; [exact E1|].
  eapply lex_app_ok0; [now apply lex_attrs_name|].
  eapply lex_app_ok0.
  - cbn. unfold dmem. replace (dget streq a k) with (@None pystr); [reflexivity|].
    symmetry. now apply (dget_None streq streq_spec).
  - eapply lex_app_ok0; [now apply lex_protected_value|]. reflexivity.
Qed.
Lemma lex_atts name l : forall st a,
  (st = LOpen name /\ a = [] \/ st = LAttrs name a) ->
  Forall (fun kv => good_local (fst kv) /\ fst kv <> [] /\ good_value (snd kv)) l ->
  NoDup (map fst (a ++ l)) -> l <> [] ->
  lex st (atts_text l) = Some (LAttrs name (a ++ l), []).
Proof.
  induction l as [|[k v] l IH]; intros st a Hst F Nd Hne; [congruence|].
  inversion F as [|? ? (Hk & Hke & Hv) F']; subst. cbn [atts_text flat_map fst snd] in *.
  assert (~ In k (map fst a)) as Hn.
  { rewrite map_app in Nd. cbn in Nd. apply NoDup_remove_2 in Nd. rewrite in_app_iff in Nd. tauto. }
  destruct l as [|kv l].
  - cbn [flat_map]. rewrite app_nil_r. apply lex_att; auto.
  - eapply lex_app_ok0; [apply (lex_att name st a k v); auto|].
    replace (a ++ (k, v) :: kv :: l) with ((a ++ [(k, v)]) ++ kv :: l) by (now rewrite <- app_assoc).
    apply IH; auto; [|discriminate]. now rewrite <- app_assoc.
Qed.

(** the start tag up to the closing character *)
Lemma lex_start_open name l :
  good_local name -> name <> [] ->
  Forall (fun kv => good_local (fst kv) /\ fst kv <> [] /\ good_value (snd kv)) l ->
  NoDup (map fst l) ->
  lex LText (lit "<" ++ name ++ atts_text l ++ lit ">") = Some (LText, [EStart name l])
  /\ lex LText (lit "<" ++ name ++ atts_text l ++ lit "/>") = Some (LText, [EStart name l; EEnd name]).
Proof.
  intros Hn Hne F Nd.
  assert (lex LText (lit "<") = Some (LLt, [])) as E0 by reflexivity.
  destruct l as [|kv l].
  - cbn [atts_text flat_map app]. split; (eapply lex_app_ok0; [exact E0|];
      eapply lex_app_ok0; [now apply lex_lt|]; reflexivity).
  - assert (lex (LOpen name) (atts_text (kv :: l)) = Some (LAttrs name (kv :: l), [])) as E.
    { apply (lex_atts name (kv :: l) (LOpen name) []); auto. discriminate. }
    split; (eapply lex_app_ok0; [exact E0|]; eapply lex_app_ok0; [now apply lex_lt|];
      eapply lex_app_ok0; [exact E|]; reflexivity).
Qed.
Lemma lex_end name : good_local name ->
  lex LText (lit "</" ++ name ++ lit ">") = Some (LText, [EEnd name]).
Proof.
  intro H. assert (lex LText (lit "</") = Some (LClose [], [])) as E0 by reflexivity.
  eapply lex_app_ok0; [exact E0|]. eapply lex_app_ok0; [now apply lex_close|]. reflexivity.
Qed.

(** ** CDATA *)
Definition no_cdend (s : pystr) : Prop := forall a b, s <> a ++ lit "]]>" ++ b.
Lemma no_cdend_tail c s : no_cdend (c :: s) -> no_cdend s.
Proof. intros H a b E. apply (H (c :: a) b). now rewrite E. Qed.
Lemma no_cdend_app a b : no_cdend (a ++ b) -> no_cdend b.
Proof. induction a as [|c a IH]; [auto|]. intro H. apply IH. now apply no_cdend_tail in H. Qed.
Definition brackets (k : nat) : pystr := repeat 93%N k.
Lemma chars_brackets k : chars (brackets k) = repeat (EData [93%N]) k.
Proof. induction k as [|k IH]; [reflexivity|]. cbn. f_equal. exact IH. Qed.
Lemma brackets_snoc k : brackets k ++ [93%N] = brackets (S k).
Proof. induction k as [|k IH]; [reflexivity|]. cbn. f_equal. exact IH. Qed.

Lemma lex_cdata t : good_text t -> forall k, k <= 2 -> no_cdend (brackets k ++ t) ->
  exists k' es, k' <= 2 /\ lex (LCdata k) t = Some (LCdata k', es)
    /\ es ++ chars (brackets k') = chars (brackets k ++ t).
Proof.
  induction 1 as [|c t Hc Ht IH]; intros k Hk Hno.
  - exists k, []. rewrite app_nil_r. auto.
  - cbn [lex]. unfold lex1. rewrite Hc. cbn [negb].
    destruct (N.eqb_spec c 93) as [->|H93].
    + destruct (Nat.eqb_spec k 2) as [->|Hk2].
      * destruct (IH 2) as (k' & es & H1 & -> & H2); [lia| |].
        { apply (no_cdend_tail 93%N). exact Hno. }
        exists k', ([EData [93%N]] ++ es). split; [assumption|]. split; [reflexivity|].
        rewrite <- app_assoc, H2. reflexivity.
      * destruct (IH (S k)) as (k' & es & H1 & -> & H2); [lia| |].
        { rewrite <- brackets_snoc, <- app_assoc. exact Hno. }
        exists k', es. split; [assumption|]. split; [reflexivity|].
        rewrite H2, <- brackets_snoc, <- app_assoc. reflexivity.
    + assert (N.eqb c 62 && Nat.eqb k 2 = false) as ->.
      { destruct (N.eqb_spec c 62) as [->|]; [|reflexivity].
        destruct (Nat.eqb_spec k 2) as [->|]; [|reflexivity].
        exfalso. apply (Hno [] t). reflexivity. }
      destruct (IH 0) as (k' & es & H1 & -> & H2); [lia| |].
      { cbn [brackets repeat app]. apply (no_cdend_app (brackets k ++ [c])). now rewrite <- app_assoc. }
      exists k', ((repeat (EData [93%N]) k ++ [EData [c]]) ++ es).
      split; [assumption|]. split; [reflexivity|].
      rewrite <- !app_assoc, H2. rewrite (chars_app (brackets k)), chars_brackets. reflexivity.
Qed.
Lemma no_cdend_indent ind s : ~ In 93%N ind -> no_cdend s -> no_cdend (indent_lines ind s).
Proof.
  intros Hi. 
  (* a match in the indented text is a match in the text *)
  assert (forall s a b, indent_lines ind s = a ++ 93%N :: 93%N :: 62%N :: b ->
            exists a' b', s = a' ++ 93%N :: 93%N :: 62%N :: b') as K.
  { clear s. induction s as [|c s IH]; intros a b E.
    - destruct a; discriminate.
    - change (indent_lines ind (c :: s))
        with ((if N.eqb c 10 then 10%N :: ind else [c]) ++ indent_lines ind s) in E.
      destruct (N.eqb_spec c 10) as [->|Hc].
      + (* the match lies in the rest *)
        assert (exists a2, indent_lines ind s = a2 ++ 93%N :: 93%N :: 62%N :: b) as (a2 & E2).
        { cbn [app] in E. destruct a as [|x a]; [discriminate|]. injection E as _ E.
          clear IH. revert E. generalize (indent_lines ind s). intros r E.
          clear -E Hi. revert a E. induction ind as [|y ind IHi]; intros a E.
          - exists a. exact E.
          - destruct a as [|x a]; cbn in E.
            + injection E as E _. exfalso. apply Hi. left. exact E.
            + injection E as _ E. apply (IHi (fun h => Hi (or_intror h)) a). exact E. }
        destruct (IH _ _ E2) as (a' & b' & ->). exists (10%N :: a'), b'. reflexivity.
      + cbn [app] in E. destruct a as [|x a].
        * cbn [app] in E. injection E as -> E.
          (* the next two characters come from s *)
          destruct s as [|c2 s]; [discriminate|].
          change (indent_lines ind (c2 :: s))
            with ((if N.eqb c2 10 then 10%N :: ind else [c2]) ++ indent_lines ind s) in E.
          destruct (N.eqb_spec c2 10); [discriminate|]. cbn [app] in E. injection E as -> E.
          destruct s as [|c3 s]; [discriminate|].
          change (indent_lines ind (c3 :: s))
            with ((if N.eqb c3 10 then 10%N :: ind else [c3]) ++ indent_lines ind s) in E.
          destruct (N.eqb_spec c3 10); [discriminate|]. cbn [app] in E. injection E as -> E.
          exists [], s. reflexivity.
        * injection E as -> E. destruct (IH _ _ E) as (a' & b' & ->). exists (x :: a'), b'. reflexivity. }
  intros H a b E. destruct (K s a b E) as (a' & b' & E'). exact (H a' b' E').
Qed.

Definition tabs (s : pystr) : Prop := Forall (fun c => c = 9%N) s.
Lemma tabs_good s : tabs s -> good_text s.
Proof. unfold tabs, good_text. rewrite !Forall_forall. intros H c Hc. now rewrite (H c Hc). Qed.
Lemma tabs_lex s : tabs s -> lex LText s = Some (LText, chars s).
Proof.
  intro H. apply lex_blank. eapply Forall_impl; [|exact H]. cbn. intros; now left.
Qed.
Lemma lex_cdata_blank s : Forall (fun c => c = 9%N \/ c = 10%N) s -> 
  lex (LCdata 0) s = Some (LCdata 0, chars s).
Proof.
  induction 1 as [|c s Hc Hs IH]; [reflexivity|]. cbn [lex].
  destruct Hc as [-> | ->]; cbn; now rewrite IH.
Qed.
Lemma lex_cdata_section ind ind2 t :
  tabs ind -> tabs ind2 -> good_text t -> no_cdend t ->
  let body := nl ++ ind ++ indent_lines ind t ++ nl ++ ind2 in
  lex LText (lit "<![CDATA[" ++ body ++ lit "]]>") = Some (LText, chars body).
Proof.
  intros Hi Hi2 Ht Hno body.
  assert (lex LText (lit "<![CDATA[") = Some (LCdata 0, [])) as E0 by reflexivity.
  eapply lex_app_ok0; [exact E0|]. subst body.
  assert (Forall (fun c => c = 9%N \/ c = 10%N) ind) as Bi
    by (eapply Forall_impl; [|exact Hi]; cbn; auto).
  assert (Forall (fun c => c = 9%N \/ c = 10%N) ind2) as Bi2
    by (eapply Forall_impl; [|exact Hi2]; cbn; auto).
  rewrite !chars_app, <- !app_assoc.
  eapply lex_app_ok; [reflexivity|].
  eapply lex_app_ok; [now apply lex_cdata_blank|].
  assert (~ In 93%N ind) as Hn.
  { intro H. unfold tabs in Hi. rewrite Forall_forall in Hi. specialize (Hi _ H). discriminate. }
  destruct (lex_cdata (indent_lines ind t) (good_text_indent _ _ (tabs_good _ Hi) Ht) 0)
    as (k' & es & Hk & E1 & E2); [lia|apply no_cdend_indent; assumption|].
  cbn [brackets repeat app] in E2. rewrite <- E2. rewrite <- app_assoc.
  eapply lex_app_ok; [exact E1|]. 
  assert (lex (LCdata k') nl = Some (LCdata 0, chars (brackets k') ++ chars nl)) as E3.
  { unfold nl. cbn [lex]. unfold lex1. cbn [xml_char N.eqb negb Pos.eqb orb].
    change (N.eqb 10 93) with false. change (N.eqb 10 62) with false. cbn [andb app].
    rewrite app_nil_r, chars_brackets. reflexivity. }
  replace (chars (brackets k') ++ chars nl ++ chars ind2)
    with ((chars (brackets k') ++ chars nl) ++ chars ind2 ++ []) by (now rewrite app_nil_r, app_assoc).
  eapply lex_app_ok; [exact E3|].
  eapply lex_app_ok; [now apply lex_cdata_blank|]. reflexivity.
Qed.
