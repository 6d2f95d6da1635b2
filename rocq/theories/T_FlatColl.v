(** C47: flattening the imports of a collation tailoring. *)
From Coq Require Import String Relations Wellfounded.Transitive_Closure.
From Verif Require Import Py PyFacts M_Collation M_UnicodeSets M_FlatColl P_UnicodeSets.
Local Open Scope list_scope.
Local Open Scope nat_scope.

(** * Specification *)

Section Spec.
  Variable ws : N -> bool.
  Definition newline : N := 10%N.
  Definition sep : pystr := lit "-u-co-".

  (** the text begins with the statement that imports the tailoring [coll] of the language
      [lang]; [rest] is what follows the statement *)
  Definition statement (s lang coll rest : pystr) : Prop :=
    exists w1 w2,
      s = lit "[import" ++ w1 ++ lang ++ sep ++ coll ++ w2 ++ lit "]" ++ rest /\
      forallb ws w1 = true /\ forallb ws w2 = true /\
      (** the language: one line, not starting with a space, up to the first separator *)
      ~ In newline lang /\
      (forall c l', lang = c :: l' -> ws c = false) /\
      (forall a b, lang ++ sep = a ++ sep ++ b -> a = lang) /\
      (** the collation: one line, up to the first closing bracket, not ending in a space *)
      ~ In newline coll /\
      ~ In 93%N coll /\
      (forall c l', coll = l' ++ [c] -> ws c = false).

  (** a tailoring is read from left to right as characters and import statements *)
  Inductive item := Char (c : N) | Import (lang coll : pystr).
  Inductive reads : pystr -> list item -> Prop :=
  | reads_end : reads [] []
  | reads_import s lang coll rest items :
      statement s lang coll rest -> reads rest items -> reads s (Import lang coll :: items)
  | reads_char c s items :
      (forall lang coll rest, ~ statement (c :: s) lang coll rest) -> reads s items ->
      reads (c :: s) (Char c :: items).

  Variable importfn : pystr -> pystr -> res pystr.

  (** the flattened tailoring: characters stay, a statement becomes the flattened form of
      the tailoring it names *)
  Inductive flat : pystr -> pystr -> Prop :=
  | flat_text s items u : reads s items -> flats items u -> flat s u
  with flats : list item -> pystr -> Prop :=
  | flats_nil : flats [] []
  | flats_char c items u : flats items u -> flats (Char c :: items) (c :: u)
  | flats_import lang coll t u items v :
      importfn lang coll = Ok t -> flat t u -> flats items v ->
      flats (Import lang coll :: items) (u ++ v).

  (** [t] is imported by [s] *)
  Definition imported_by (t s : pystr) : Prop :=
    exists items lang coll, reads s items /\ In (Import lang coll) items /\ importfn lang coll = Ok t.
End Spec.

Scheme flat_ind2 := Minimality for flat Sort Prop
  with flats_ind2 := Minimality for flats Sort Prop.
Combined Scheme flat_flats_ind from flat_ind2, flats_ind2.

(** * Reading one statement *)
Lemma strip_prefix_Some p s r : strip_prefix p s = Some r <-> s = p ++ r.
Proof.
  revert s; induction p as [|x p IH]; intros s; cbn [strip_prefix app].
  - split; [intros [= ->]; reflexivity|intros ->; reflexivity].
  - destruct s as [|y s]; [split; discriminate|].
    destruct (N.eqb_spec x y) as [->|N1].
    + rewrite IH. split; [intros ->; reflexivity|intros [= ->]; reflexivity].
    + split; [discriminate|congruence].
Qed.

Section Proofs.
  Variable ws : N -> bool.
  Hypothesis ws_bracket : ws 93%N = false.
  Hypothesis ws_hyphen : ws 45%N = false.

  Lemma lstrip_split s : exists w, s = w ++ lstrip ws s /\ forallb ws w = true.
  Proof.
    induction s as [|c s (w & E & H)]; cbn [lstrip].
    - exists []. split; reflexivity.
    - destruct (ws c) eqn:W.
      + exists (c :: w). cbn [app forallb]. rewrite <- E, W, H. split; reflexivity.
      + exists []. split; reflexivity.
  Qed.
  Lemma lstrip_ws w s : forallb ws w = true -> lstrip ws (w ++ s) = lstrip ws s.
  Proof.
    induction w as [|c w IH]; intros H; [reflexivity|].
    cbn [forallb app lstrip] in *. apply andb_true_iff in H. destruct H as [-> H]. auto.
  Qed.
  Lemma lstrip_fix c s : ws c = false -> lstrip ws (c :: s) = c :: s.
  Proof. intros H. cbn [lstrip]. rewrite H. reflexivity. Qed.
  Lemma lstrip_head s c s' : lstrip ws s = c :: s' -> ws c = false.
  Proof.
    induction s as [|x s IH]; cbn [lstrip]; [discriminate|].
    destruct (ws x) eqn:W; [assumption|congruence].
  Qed.

  (** what the closing part of the statement must look like *)
  Definition closes (s coll rest : pystr) : Prop :=
    exists w2, s = coll ++ w2 ++ 93%N :: rest /\ forallb ws w2 = true /\
      ~ In newline coll /\ ~ In 93%N coll /\ (forall c l', coll = l' ++ [c] -> ws c = false).

  Lemma coll_at_eq s : coll_at ws s =
    match lstrip ws s with
    | 93%N :: rest => Some ([], rest)
    | _ => match s with
           | [] => None
           | c :: s' => if N.eqb c 10 then None
               else match coll_at ws s' with Some (g, rest) => Some (c :: g, rest) | None => None end
           end
    end.
  Proof. destruct s; reflexivity. Qed.

  Lemma coll_at_cases s :
    (exists w rest, s = w ++ 93%N :: rest /\ forallb ws w = true /\ coll_at ws s = Some ([], rest)) \/
    ((forall rest, lstrip ws s <> 93%N :: rest) /\
     coll_at ws s = match s with
           | [] => None
           | c :: s' => if N.eqb c 10 then None
               else match coll_at ws s' with Some (g, rest) => Some (c :: g, rest) | None => None end
           end).
  Proof.
    rewrite coll_at_eq. destruct (lstrip_split s) as (w & E & W).
    destruct (lstrip ws s) as [|x rest] eqn:L; [right; split; [discriminate|reflexivity]|].
    destruct (N.eqb_spec x 93) as [->|Nx].
    - left. exists w, rest. auto.
    - right. split; [congruence|]. clear -Nx. destruct x as [|p]; [reflexivity|].
      do 7 (destruct p as [p|p|]; try reflexivity). congruence.
  Qed.

  Lemma coll_at_sound s coll rest : coll_at ws s = Some (coll, rest) -> closes s coll rest.
  Proof.
    revert coll rest; induction s as [|c s IH]; intros coll rest.
    - destruct (coll_at_cases []) as [(w & r & E & _)|[_ E]]; [destruct w; discriminate|].
      rewrite E; discriminate.
    - destruct (coll_at_cases (c :: s)) as [(w & r & E & W & C)|[Hn C]]; rewrite C; clear C.
      + intros [= <- <-]. exists w. cbn [app]. split; [assumption|]. split; [assumption|].
        split; [intros []|]. split; [intros []|]. intros c0 l' E2. destruct l'; discriminate.
      + destruct (N.eqb_spec c 10) as [->|Nc]; [discriminate|].
        destruct (coll_at ws s) as [[g r]|] eqn:Cs; [|discriminate].
        intros [= <- <-]. destruct (IH g r eq_refl) as (w2 & E & W & Hnl & Hb & Hl).
        exists w2. split; [rewrite E; reflexivity|]. split; [assumption|].
        split; [intros [H|H]; [unfold newline in H; congruence|auto]|].
        split.
        * intros [H|H]; [|auto]. subst c. apply (Hn s). cbn [lstrip]. rewrite ws_bracket. reflexivity.
        * intros c0 l' E2. destruct l' as [|x l']; cbn [app] in E2.
          -- injection E2 as -> ->. destruct (ws c0) eqn:W0; [|reflexivity].
             exfalso. apply (Hn r). cbn [lstrip]. rewrite W0, E. cbn [app].
             rewrite lstrip_ws by assumption. apply lstrip_fix; assumption.
          -- injection E2 as -> ->. eauto.
  Qed.

  Lemma coll_at_complete s coll rest : closes s coll rest -> coll_at ws s = Some (coll, rest).
  Proof.
    intros (w2 & E & W & Hnl & Hb & Hl). revert s E; induction coll as [|c coll IH]; intros s ->.
    - cbn [app]. rewrite coll_at_eq, lstrip_ws by assumption. rewrite lstrip_fix by assumption. reflexivity.
    - destruct (coll_at_cases ((c :: coll) ++ w2 ++ 93%N :: rest)) as [(w & r & E & Hw & _)|[Hn C]].
      + exfalso.
        (* the collation would be white space up to the bracket *)
        assert (Hx : exists x l', c :: coll = l' ++ [x]).
        { destruct (@exists_last _ (c :: coll)) as (l' & x & E2); [discriminate|]. eauto. }
        destruct Hx as (x & l' & E2). specialize (Hl x l' E2).
        assert (Hxw : In x w \/ exists p, l' ++ [x] = w ++ 93%N :: p \/ False).
        { rewrite E2 in E, Hb. clear -E Hb. revert w E.
          induction l' as [|y l' IH]; intros w E; cbn [app] in *.
          - destruct w as [|z w]; cbn [app] in E.
            + injection E as -> _. exfalso. apply Hb. left. reflexivity.
            + injection E as -> _. left. left. reflexivity.
          - destruct w as [|z w]; cbn [app] in E.
            + injection E as -> _. exfalso. apply Hb. left. reflexivity.
            + injection E as -> E. destruct (IH (fun H => Hb (or_intror H)) w E) as [H|(p & [H|[]])].
              * left. right. assumption.
              * right. exists p. left. cbn [app]. rewrite H. reflexivity. }
        destruct Hxw as [H|(p & [H|[]])].
        * rewrite forallb_forall in Hw. rewrite (Hw _ H) in Hl. discriminate.
        * apply Hb. rewrite E2, H. apply in_or_app. right. left. reflexivity.
      + rewrite C. cbn [app]. destruct (N.eqb_spec c 10) as [->|Nc].
        { exfalso. apply Hnl. left. reflexivity. }
        rewrite (IH (fun H => Hnl (or_intror H)) (fun H => Hb (or_intror H))
                   (fun c0 l' E2 => Hl c0 (c :: l') (f_equal (cons c) E2)) _ eq_refl).
        reflexivity.
  Qed.

  Lemma coll_at_more m s : ~ In newline m -> coll_at ws s <> None -> coll_at ws (m ++ s) <> None.
  Proof.
    intros Hm Hs. induction m as [|c m IH]; [assumption|]. cbn [app].
    destruct (coll_at_cases (c :: m ++ s)) as [(w & r & _ & _ & C)|[_ C]]; rewrite C; [discriminate|].
    destruct (N.eqb_spec c 10) as [->|Nc]; [exfalso; apply Hm; left; reflexivity|].
    specialize (IH (fun H => Hm (or_intror H))).
    destruct (coll_at ws (m ++ s)) as [[g r]|]; congruence.
  Qed.

  Lemma lang_at_eq s : lang_at ws s =
    match match strip_prefix sep s with Some r => coll_at ws r | None => None end with
    | Some (coll, rest) => Some ([], coll, rest)
    | None => match s with
              | [] => None
              | c :: s' => if N.eqb c 10 then None
                  else match lang_at ws s' with
                       | Some (g, coll, rest) => Some (c :: g, coll, rest)
                       | None => None end
              end
    end.
  Proof. destruct s; reflexivity. Qed.

  Definition names (s lang coll rest : pystr) : Prop :=
    exists t, s = lang ++ sep ++ t /\ closes t coll rest /\ ~ In newline lang /\
      (forall a b, lang ++ sep = a ++ sep ++ b -> a = lang).

  Lemma sep_prefix b s t : sep ++ t = b ++ s -> List.length b = 6 -> b = sep.
  Proof.
    intros E H. do 7 (destruct b as [|? b]; try discriminate H).
    cbn [sep lit app] in E. injection E as <- <- <- <- <- <- _. reflexivity.
  Qed.

  Lemma lang_at_sound s lang coll rest : lang_at ws s = Some (lang, coll, rest) -> names s lang coll rest.
  Proof.
    revert lang coll rest; induction s as [|c s IH]; intros lang coll rest; rewrite lang_at_eq.
    - discriminate.
    - destruct (strip_prefix sep (c :: s)) as [r|] eqn:Ep.
      + apply strip_prefix_Some in Ep. destruct (coll_at ws r) as [[coll' rest']|] eqn:C.
        * intros [= <- <- <-]. exists r. split; [assumption|]. split; [apply coll_at_sound; assumption|].
          split; [intros []|]. intros a b E. cbn [app] in E.
          apply (f_equal (@List.length N)) in E. rewrite !app_length in E. destruct a; [reflexivity|].
          cbn [List.length] in E. lia.
        * destruct (N.eqb_spec c 10) as [->|Nc]; [discriminate|].
          destruct (lang_at ws s) as [[[g coll'] rest']|] eqn:L; [|discriminate].
          exfalso. destruct (IH _ _ _ eq_refl) as (t & E & Hc & Hn & _).
          (* the separator is here, and a later one closes: then this one would have closed *)
          assert (Hr : exists m, r = m ++ t /\ ~ In newline m).
          { rewrite E in Ep. change (c :: g ++ sep ++ t) with ((c :: g) ++ sep ++ t) in Ep.
            rewrite app_assoc in Ep.
            exists (skipn 6 ((c :: g) ++ sep)).
            assert (Hlen : 6 <= List.length ((c :: g) ++ sep)) by (rewrite app_length; cbn; lia).
            assert (Es : skipn 6 (((c :: g) ++ sep) ++ t) = skipn 6 (sep ++ r)) by (rewrite Ep; reflexivity).
            rewrite skipn_app in Es. replace (6 - List.length ((c :: g) ++ sep)) with 0 in Es by lia.
            split; [symmetry; exact Es|].
            intros H. assert (H2 : In newline ((c :: g) ++ sep)).
            { rewrite <- (firstn_skipn 6). apply in_or_app. right. exact H. }
            apply in_app_or in H2. destruct H2 as [[H2|H2]|H2]; [unfold newline in H2; congruence|auto|].
            cbn in H2. unfold newline in H2. intuition discriminate. }
          destruct Hr as (m & -> & Hm). apply coll_at_complete in Hc.
          apply (coll_at_more m t Hm); [rewrite Hc; discriminate|assumption].
      + destruct (N.eqb_spec c 10) as [->|Nc]; [discriminate|].
        destruct (lang_at ws s) as [[[g coll'] rest']|] eqn:L; [|discriminate].
        intros [= <- <- <-]. destruct (IH _ _ _ eq_refl) as (t & E & Hc & Hn & Hf).
        exists t. split; [rewrite E; reflexivity|]. split; [assumption|].
        split; [intros [H|H]; [unfold newline in H; congruence|auto]|].
        intros a b Ea. destruct a as [|x a].
        * exfalso. change ([] ++ sep ++ b) with (sep ++ b) in Ea.
          assert (strip_prefix sep (c :: s) = Some (b ++ t)) as Ex; [|rewrite Ex in Ep; discriminate Ep].
          apply strip_prefix_Some. rewrite E.
          change (c :: g ++ sep ++ t) with ((c :: g) ++ sep ++ t).
          rewrite app_assoc. rewrite Ea. rewrite <- app_assoc. reflexivity.
        * cbn [app] in Ea. injection Ea as -> Ea. f_equal. exact (Hf a b Ea).
  Qed.

  Lemma lang_at_complete s lang coll rest : names s lang coll rest -> lang_at ws s = Some (lang, coll, rest).
  Proof.
    intros (t & E & Hc & Hn & Hf). revert s E; induction lang as [|c lang IH]; intros s ->; rewrite lang_at_eq.
    - cbn [app]. assert (strip_prefix sep (sep ++ t) = Some t) as -> by (apply strip_prefix_Some; reflexivity).
      rewrite (coll_at_complete _ _ _ Hc). reflexivity.
    - destruct (strip_prefix sep ((c :: lang) ++ sep ++ t)) as [r|] eqn:Ep.
      + exfalso. apply strip_prefix_Some in Ep. rewrite app_assoc in Ep.
        assert (Hlen : 6 <= List.length ((c :: lang) ++ sep)) by (rewrite app_length; cbn; lia).
        assert (E6 : firstn 6 ((c :: lang) ++ sep) = sep).
        { apply (sep_prefix _ (skipn 6 ((c :: lang) ++ sep) ++ t) r).
          - rewrite <- Ep, app_assoc, firstn_skipn. reflexivity.
          - rewrite firstn_length. lia. }
        specialize (Hf [] (skipn 6 ((c :: lang) ++ sep))).
        cbn [app] in Hf. rewrite <- E6 in Hf at 2.
        change (c :: lang ++ sep) with ((c :: lang) ++ sep) in Hf.
        rewrite firstn_skipn in Hf. specialize (Hf eq_refl). discriminate.
      + cbn [app]. destruct (N.eqb_spec c 10) as [->|Nc]; [exfalso; apply Hn; left; reflexivity|].
        rewrite (IH (fun H => Hn (or_intror H))); [reflexivity| |reflexivity].
        intros a b Ea. specialize (Hf (c :: a) b). cbn [app] in Hf. rewrite Ea in Hf.
        specialize (Hf eq_refl). congruence.
  Qed.

  (** ** C47: which text is a statement, and how much of the text it takes *)
  Theorem C47_statement s n lang coll :
    import_at ws s = Some (n, lang, coll) <->
    exists rest, statement ws s lang coll rest /\ n + List.length rest = List.length s.
  Proof.
    unfold import_at. split.
    - destruct (strip_prefix (lit "[import") s) as [r|] eqn:Ep; [|discriminate].
      apply strip_prefix_Some in Ep.
      destruct (lstrip_split r) as (w1 & E1 & W1).
      destruct (lang_at ws (lstrip ws r)) as [[[lang' coll'] rest]|] eqn:L; [|discriminate].
      intros [= <- <- <-]. apply lang_at_sound in L.
      destruct L as (t & E & (w2 & E2 & W2 & H1 & H2 & H3) & Hn & Hf).
      assert (Es : s = lit "[import" ++ w1 ++ lang' ++ sep ++ coll' ++ w2 ++ lit "]" ++ rest).
      { rewrite Ep, E1, E, E2. reflexivity. }
      exists rest. split.
      + exists w1, w2. split; [assumption|]. repeat (split; [assumption|]). split; [|auto].
        intros c l' ->. eapply lstrip_head. rewrite E. reflexivity.
      + rewrite Es. rewrite !app_length. lia.
    - intros (rest & (w1 & w2 & -> & W1 & W2 & Hn & Hh & Hf & H1 & H2 & H3) & Hlen).
      assert (strip_prefix (lit "[import") (lit "[import" ++ w1 ++ lang ++ sep ++ coll ++ w2 ++ lit "]" ++ rest)
              = Some (w1 ++ lang ++ sep ++ coll ++ w2 ++ lit "]" ++ rest)) as ->.
      { apply strip_prefix_Some. reflexivity. }
      rewrite lstrip_ws by assumption.
      assert (lstrip ws (lang ++ sep ++ coll ++ w2 ++ lit "]" ++ rest) = lang ++ sep ++ coll ++ w2 ++ lit "]" ++ rest) as ->.
      { destruct lang as [|c l']; cbn [app]; [apply lstrip_fix; assumption|].
        apply lstrip_fix. eapply Hh. reflexivity. }
      rewrite (lang_at_complete _ lang coll rest).
      + f_equal. f_equal. f_equal. lia.
      + exists (coll ++ w2 ++ 93%N :: rest). split; [reflexivity|]. split; [|auto].
        exists w2. auto.
  Qed.

  Lemma statement_unique s lang coll rest lang' coll' rest' :
    statement ws s lang coll rest -> statement ws s lang' coll' rest' ->
    lang = lang' /\ coll = coll' /\ rest = rest'.
  Proof.
    intros H H'.
    assert (P : forall l c r, statement ws s l c r -> exists p, s = p ++ r).
    { intros l c r (w1 & w2 & -> & _). exists (lit "[import" ++ w1 ++ l ++ sep ++ c ++ w2 ++ lit "]").
      rewrite <- !app_assoc. reflexivity. }
    destruct (P _ _ _ H) as (p & E). destruct (P _ _ _ H') as (p' & E').
    assert (A : import_at ws s = Some (List.length s - List.length rest, lang, coll)).
    { apply C47_statement. exists rest. split; [assumption|]. rewrite E, app_length. lia. }
    assert (A' : import_at ws s = Some (List.length s - List.length rest', lang', coll')).
    { apply C47_statement. exists rest'. split; [assumption|]. rewrite E', app_length. lia. }
    rewrite A in A'. injection A' as Hl -> ->. split; [reflexivity|]. split; [reflexivity|].
    assert (Hlen : List.length rest = List.length rest').
    { apply (f_equal (@List.length N)) in E, E'. rewrite app_length in E, E'. lia. }
    assert (Hp : List.length p = List.length p').
    { apply (f_equal (@List.length N)) in E, E'. rewrite app_length in E, E'. lia. }
    rewrite E in E'. clear -Hp E'. revert p' Hp E'; induction p as [|x p IH]; intros [|y p'] Hp E'; try discriminate.
    - assumption.
    - injection E' as _ E'. eapply IH; [|eassumption]. cbn in Hp. lia.
  Qed.

  (** the statement is not empty, so the scan makes progress *)
  Lemma import_at_hit s n lang coll : import_at ws s = Some (n, lang, coll) ->
    exists c p rest, s = (c :: p) ++ rest /\ n = S (List.length p) /\ statement ws s lang coll rest.
  Proof.
    intros H. apply C47_statement in H. destruct H as (rest & Hs & Hn).
    pose proof Hs as (w1 & w2 & E & _).
    exists 91%N, (tl (lit "[import") ++ w1 ++ lang ++ sep ++ coll ++ w2 ++ lit "]"), rest.
    assert (E2 : s = (91%N :: tl (lit "[import") ++ w1 ++ lang ++ sep ++ coll ++ w2 ++ lit "]") ++ rest).
    { rewrite E. cbn [app]. rewrite <- !app_assoc. reflexivity. }
    split; [assumption|]. split; [|assumption].
    rewrite E2 in Hn. rewrite app_length in Hn. cbn [List.length] in Hn. lia.
  Qed.
  Lemma import_at_none s : import_at ws s = None -> forall lang coll rest, ~ statement ws s lang coll rest.
  Proof.
    intros H lang coll rest Hs.
    assert (Hx : exists n, n + List.length rest = List.length s).
    { destruct Hs as (w1 & w2 & -> & _). rewrite !app_length. eexists. rewrite !Nat.add_assoc. reflexivity. }
    destruct Hx as (n & Hn).
    assert (import_at ws s = Some (n, lang, coll)) by (apply C47_statement; eauto). congruence.
  Qed.

  Lemma reads_total s : exists items, reads ws s items.
  Proof.
    remember (List.length s) as n eqn:En. revert s En.
    induction n as [n IH] using lt_wf_ind. intros s ->.
    destruct (import_at ws s) as [[[n lang] coll]|] eqn:I.
    - apply import_at_hit in I. destruct I as (c & p & rest & E & _ & Hs).
      destruct (IH (List.length rest)) with (s := rest) as (items & Hi); [|reflexivity|].
      + rewrite E, app_length. cbn. lia.
      + exists (Import lang coll :: items). eapply reads_import; eassumption.
    - destruct s as [|c s]; [exists []; constructor|].
      destruct (IH (List.length s)) with (s := s) as (items & Hi); [cbn; lia|reflexivity|].
      exists (Char c :: items). constructor; [|assumption]. apply import_at_none. assumption.
  Qed.
  Lemma reads_unique s items items' : reads ws s items -> reads ws s items' -> items = items'.
  Proof.
    intros H; revert items'; induction H as [|s lang coll rest items Hs H IH|c s items Hs H IH]; intros items' H'.
    - inversion H' as [|s lang coll rest items Hs H1|]; [reflexivity|].
      destruct Hs as (w1 & w2 & E & _). discriminate.
    - inversion H' as [E|s2 lang2 coll2 rest2 items2 Hs2 H2|c2 s2 items2 Hs2 H2]; subst.
      + destruct Hs as (w1 & w2 & E & _). discriminate.
      + destruct (statement_unique _ _ _ _ _ _ _ Hs Hs2) as (-> & -> & ->). f_equal. auto.
      + destruct (Hs2 _ _ _ Hs).
    - inversion H' as [|s2 lang2 coll2 rest2 items2 Hs2 H2|c2 s2 items2 Hs2 H2]; subst.
      + destruct (Hs _ _ _ Hs2).
      + f_equal. auto.
  Qed.

  (** * Flattening *)
  Variable importfn : pystr -> pystr -> res pystr.
  Notation flatten := (flatten_coll ws importfn).

  (** what the function computes from a reading of the text *)
  Fixpoint assemble (d : nat) (items : list item) : res pystr :=
    match items with
    | [] => Ok []
    | Char c :: r => do b <- assemble d r; Ok (c :: b)
    | Import lang coll :: r =>
        do a <- (do t <- importfn lang coll; flatten d t); do b <- assemble d r; Ok (a ++ b)
    end.

  Lemma flatten_reads d s items : reads ws s items -> flatten (S d) s = assemble d items.
  Proof.
    cbn [flatten_coll].
    set (at_ := fun s' => match import_at ws s' with Some (n, lang, coll) => _ | None => None end).
    intros H; induction H as [|s lang coll rest items Hs H IH|c s items Hs H IH].
    - reflexivity.
    - destruct (import_at ws s) as [[[n l] co]|] eqn:I.
      2:{ destruct (import_at_none _ I _ _ _ Hs). }
      pose proof (import_at_hit _ _ _ _ I) as (c & p & rest' & E & Hn & Hs').
      destruct (statement_unique _ _ _ _ _ _ _ Hs Hs') as (-> & -> & ->).
      assert (A : at_ s = Some (n, do t <- importfn l co; flatten d t)) by (unfold at_; rewrite I; reflexivity).
      rewrite E in *. cbn [app resub] in *. rewrite A. cbn [assemble].
      destruct (do t <- importfn l co; flatten d t) as [a|e]; [|reflexivity]. cbn [bind].
      rewrite Hn. replace (S (List.length p) - 1) with (List.length p) by lia.
      rewrite resub_skip, IH. reflexivity.
    - assert (A : at_ (c :: s) = None).
      { unfold at_. destruct (import_at ws (c :: s)) as [[[n l] co]|] eqn:I; [|reflexivity].
        apply import_at_hit in I. destruct I as (? & ? & rest' & _ & _ & Hs'). destruct (Hs _ _ _ Hs'). }
      rewrite (resub_none at_ c s A), IH. reflexivity.
  Qed.

  (** ** C47: what flattening gives is the flattened text, at whatever depth it is reached *)
  Theorem C47_sound d s u : flatten d s = Ok u -> flat ws importfn s u.
  Proof.
    revert s u; induction d as [|d IH]; intros s u H; [discriminate|].
    destruct (reads_total s) as (items & Hi).
    rewrite (flatten_reads _ _ _ Hi) in H. apply flat_text with items; [assumption|].
    clear Hi s. revert u H; induction items as [|[c|lang coll] items IHi]; intros u H; cbn [assemble] in H.
    - injection H as <-. constructor.
    - destruct (assemble d items) as [b|]; cbn [bind] in H; [|discriminate]. injection H as <-.
      constructor. auto.
    - destruct (importfn lang coll) as [t|] eqn:It; cbn [bind] in H; [|discriminate].
      destruct (flatten d t) as [a|] eqn:Ft; cbn [bind] in H; [|discriminate].
      destruct (assemble d items) as [b|]; cbn [bind] in H; [|discriminate]. injection H as <-.
      econstructor; eauto.
  Qed.

  Theorem C47_complete s u : flat ws importfn s u -> exists d0, forall d, d0 <= d -> flatten d s = Ok u.
  Proof.
    apply (flat_ind2 ws importfn
      (fun s u => exists d0, forall d, d0 <= d -> flatten d s = Ok u)
      (fun items u => exists d0, forall d, d0 <= d -> assemble d items = Ok u)).
    - intros s' items u' Hr _ (d0 & H). exists (S d0). intros [|d] Hd; [lia|].
      rewrite (flatten_reads _ _ _ Hr). apply H. lia.
    - exists 0. reflexivity.
    - intros c items u' _ (d0 & H). exists d0. intros d Hd. cbn [assemble]. rewrite H by assumption. reflexivity.
    - intros lang coll t u' items v It _ (d1 & H1) _ (d2 & H2). exists (max d1 d2). intros d Hd.
      cbn [assemble]. rewrite It. cbn [bind]. rewrite H1 by lia. cbn [bind]. rewrite H2 by lia. reflexivity.
  Qed.

  Theorem C47_unique s u v : flat ws importfn s u -> flat ws importfn s v -> u = v.
  Proof.
    intros H K. apply C47_complete in H, K. destruct H as (d1 & H), K as (d2 & K).
    specialize (H (max d1 d2)). specialize (K (max d1 d2)). rewrite H in K by lia.
    specialize (K ltac:(lia)). congruence.
  Qed.

  (** text in which no statement begins comes back as it is, whatever the import function *)
  Theorem C47_no_import d s :
    (forall pre post lang coll rest, s = pre ++ post -> ~ statement ws post lang coll rest) ->
    flatten (S d) s = Ok s.
  Proof.
    intros H. assert (R : reads ws s (map Char s) /\ assemble d (map Char s) = Ok s).
    { induction s as [|c s IH]; [split; [constructor|reflexivity]|].
      destruct IH as [R A].
      - intros pre post lang coll rest ->. apply (H (c :: pre)). reflexivity.
      - split; cbn [map]; [constructor; [|assumption]|].
        + intros lang coll rest. apply (H []). reflexivity.
        + cbn [assemble]. rewrite A. reflexivity. }
    destruct R as [R A]. rewrite (flatten_reads _ _ _ R). assumption.
  Qed.

  (** if the flattening ends, the imports it goes through are well founded *)
  Theorem C47_founded d s u : flatten d s = Ok u -> Acc (imported_by ws importfn) s.
  Proof.
    revert s u; induction d as [|d IH]; intros s u H; [discriminate|].
    constructor. intros t (items & lang & coll & Hr & Hi & It).
    rewrite (flatten_reads _ _ _ Hr) in H. clear Hr s. revert u H Hi.
    induction items as [|[c|l co] items IHi]; intros u H Hi; [destruct Hi| |]; cbn [assemble] in H.
    - destruct (assemble d items) as [b|]; cbn [bind] in H; [|discriminate].
      destruct Hi as [Hi|Hi]; [discriminate|]. eauto.
    - destruct (importfn l co) as [t'|] eqn:It'; cbn [bind] in H; [|discriminate].
      destruct (flatten d t') as [a|] eqn:Ft; cbn [bind] in H; [|discriminate].
      destruct (assemble d items) as [b|]; cbn [bind] in H; [|discriminate].
      destruct Hi as [[= -> ->]|Hi]; [|eauto].
      rewrite It in It'. injection It' as <-. eauto.
  Qed.

  Lemma flatten_more d d' s u : d <= d' -> flatten d s = Ok u -> flatten d' s = Ok u.
  Proof.
    revert d' s u; induction d as [|d IH]; intros d' s u Hd H; [discriminate|].
    destruct d' as [|d']; [lia|]. destruct (reads_total s) as (items & Hr).
    rewrite (flatten_reads d s items Hr) in H. rewrite (flatten_reads d' s items Hr). clear Hr s.
    revert u H; induction items as [|[c|l co] items IHi]; intros u H; cbn [assemble] in H |- *; [assumption| |].
    - destruct (assemble d items) as [b|]; cbn [bind] in H; [|discriminate]. rewrite (IHi _ eq_refl). assumption.
    - destruct (importfn l co) as [t|]; cbn [bind] in H |- *; [|discriminate].
      destruct (flatten d t) as [a|] eqn:Ft; cbn [bind] in H; [|discriminate].
      rewrite (IH d' t a ltac:(lia) Ft). cbn [bind].
      destruct (assemble d items) as [b|]; cbn [bind] in H; [|discriminate]. rewrite (IHi _ eq_refl). assumption.
  Qed.

  Hypothesis importfn_total : forall lang coll, exists t, importfn lang coll = Ok t.

  (** ** C47: when the import function always answers, flattening ends exactly when the
      imports are well founded *)
  Theorem C47_terminates s :
    (exists d u, flatten d s = Ok u) <-> Acc (imported_by ws importfn) s.
  Proof.
    split; [intros (d & u & H); eapply C47_founded; eassumption|].
    intros H; induction H as [s _ IH].
    destruct (reads_total s) as (items & Hr).
    assert (A : exists d u, assemble d items = Ok u).
    { assert (Hi : forall l co, In (Import l co) items -> exists d u t, importfn l co = Ok t /\ flatten d t = Ok u).
      { intros l co Hin. destruct (importfn_total l co) as (t & It). destruct (IH t) as (d & u & F); [|eauto 6].
        exists items, l, co. auto. }
      clear Hr IH. induction items as [|[c|l co] items IHi].
      - exists 0, []. reflexivity.
      - destruct IHi as (d & u & A); [intros; apply Hi; right; assumption|].
        exists d, (c :: u). cbn [assemble]. rewrite A. reflexivity.
      - destruct IHi as (d & u & A); [intros; apply Hi; right; assumption|].
        destruct (Hi l co (or_introl eq_refl)) as (d2 & u2 & t & It & F).
        exists (max d d2), (u2 ++ u). cbn [assemble]. rewrite It. cbn [bind].
        rewrite (flatten_more d2 (max d d2) t u2) by (lia || assumption). cbn [bind].
        enough (assemble (max d d2) items = Ok u) as -> by reflexivity.
        clear -A ws_bracket ws_hyphen. revert u A; induction items as [|[c|l co] items IHi]; intros u A; cbn [assemble] in A |- *; [assumption| |].
        + destruct (assemble d items) as [b|]; cbn [bind] in A; [|discriminate]. rewrite (IHi _ eq_refl). assumption.
        + destruct (importfn l co) as [t|]; cbn [bind] in A |- *; [|discriminate].
          destruct (flatten d t) as [a|] eqn:F; cbn [bind] in A; [|discriminate].
          rewrite (flatten_more d (max d d2) t a) by (lia || assumption). cbn [bind].
          destruct (assemble d items) as [b|]; cbn [bind] in A; [|discriminate]. rewrite (IHi _ eq_refl). assumption. }
    destruct A as (d & u & A). exists (S d), u. rewrite (flatten_reads _ _ _ Hr). assumption.
  Qed.

  (** the only way not to end is to go ever deeper *)
  Theorem C47_diverges s : ~ Acc (imported_by ws importfn) s -> forall d, flatten d s = Raise OutOfFuel.
  Proof.
    intros Hs d. destruct (flatten d s) as [u|e] eqn:F; [exfalso; apply Hs; eapply C47_founded; eassumption|].
    clear Hs. revert s e F; induction d as [|d IH]; intros s e F; [cbn [flatten_coll] in F; congruence|].
    destruct (reads_total s) as (items & Hr). rewrite (flatten_reads _ _ _ Hr) in F. clear Hr s.
    induction items as [|[c|l co] items IHi]; cbn [assemble] in F; [discriminate| |].
    - destruct (assemble d items) as [b|e']; cbn [bind] in F; [discriminate|]. apply IHi. congruence.
    - destruct (importfn_total l co) as (t & It). rewrite It in F. cbn [bind] in F.
      destruct (flatten d t) as [a|e'] eqn:Ft; cbn [bind] in F.
      + destruct (assemble d items) as [b|e'']; cbn [bind] in F; [discriminate|]. apply IHi. congruence.
      + injection F as ->. eauto.
  Qed.

  (** a tailoring that imports itself, directly or through others, is never flattened *)
  Theorem C47_cycle s d : clos_trans _ (imported_by ws importfn) s s -> flatten d s = Raise OutOfFuel.
  Proof.
    intros H. apply C47_diverges. intros A. apply Acc_clos_trans in A.
    induction A as [s _ IH]. exact (IH s H H).
  Qed.
End Proofs.

(** * Examples *)
Section Examples.
  Let space (c : N) : bool := (N.eqb c 32 || N.eqb c 10)%bool.
  (** a small library: root imports nothing, de imports root, xx and yy import each other *)
  Let lib (lang coll : pystr) : res pystr :=
    Ok (if streq lang (lit "und") then lit "&a<b"
        else if streq lang (lit "de") then lit "[import und-u-co-search]&c<d"
        else if streq lang (lit "xx") then lit "[import yy-u-co-standard]"
        else if streq lang (lit "yy") then lit "&q[import xx-u-co-standard]"
        else []).

  Example C47_example_flat :
    flatten_coll space lib 3 (lit "&x[import  de-u-co-phonebk ]<y") = Ok (lit "&x&a<b&c<d<y").
  Proof. vm_compute. reflexivity. Qed.

  Example C47_example_total : forall lang coll, exists t, lib lang coll = Ok t.
  Proof. intros. eexists. reflexivity. Qed.
  Example C47_example_space : space 93%N = false /\ space 45%N = false.
  Proof. split; reflexivity. Qed.
  Example C47_example_founded : Acc (imported_by space lib) (lit "&x[import  de-u-co-phonebk ]<y").
  Proof. eapply C47_founded with (d := 3); [reflexivity|reflexivity|]. vm_compute. reflexivity. Qed.

  Example C47_example_cycle :
    clos_trans _ (imported_by space lib) (lit "[import yy-u-co-standard]") (lit "[import yy-u-co-standard]").
  Proof.
    assert (R : forall l s n, import_at space s = Some (n, l, lit "standard") -> n = List.length s ->
                reads space s [Import l (lit "standard")]).
    { intros l s n H ->. apply (C47_statement space eq_refl eq_refl) in H.
      destruct H as (rest & Hs & Hl). destruct rest; [|cbn [List.length] in Hl; lia].
      apply reads_import with []; [assumption|constructor]. }
    apply t_trans with (lit "&q[import xx-u-co-standard]").
    - apply t_step. exists (map Char (lit "&q") ++ [Import (lit "xx") (lit "standard")]), (lit "xx"), (lit "standard").
      split; [|split; [right; right; left; reflexivity|reflexivity]].
      cbn [map lit String.list_ascii_of_string Ascii.N_of_ascii app].
      apply reads_char; [apply (import_at_none space eq_refl eq_refl); reflexivity|].
      apply reads_char; [apply (import_at_none space eq_refl eq_refl); reflexivity|].
      apply R with 25; vm_compute; reflexivity.
    - apply t_step. exists [Import (lit "yy") (lit "standard")], (lit "yy"), (lit "standard").
      split; [apply R with 25; vm_compute; reflexivity|]. split; [left; reflexivity|reflexivity].
  Qed.

  (** two findings. A bracket inside the language is not the end of the statement: an
      [import] without a collation swallows the text up to the next complete statement. *)
  Example C47_swallows :
    flatten_coll space lib 3 (lit "[import de]&k<l[import und-u-co-search]") = Ok [].
  Proof. vm_compute. reflexivity. Qed.
  (** and the flattened text may contain a new statement, formed across an import *)
  Example C47_result_may_import :
    flatten_coll space lib 3 (lit "[imp[import zz-u-co-x]ort und-u-co-search]") = Ok (lit "[import und-u-co-search]").
  Proof. vm_compute. reflexivity. Qed.
End Examples.
