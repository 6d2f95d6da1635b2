(** C89: normalising a tree of files. *)
From Coq Require Import String.
From Verif Require Import Py PyFacts M_Files T_Files M_NormalizeAll.
Local Open Scope list_scope.

(** * Specification *)
(** the parts of the paths of the documents: in the directory itself and one level below *)
Definition document (name : pystr) : Prop := exists stem, name = stem ++ lit ".xml" \/ name = stem ++ lit ".ldml".
Inductive selected (l : listing) : list pystr -> Prop :=
| sel_top n k : In (n, k) l -> document n -> selected l [n]
| sel_sub n fs f : In (n, Some fs) l -> ~ document n -> In f fs -> document f -> selected l [n; f].
Definition plain_listing (l : listing) : Prop :=
  forall n k, In (n, k) l -> plain_name n /\ forall fs f, k = Some fs -> In f fs -> plain_name f.
Definition distinct_listing (l : listing) : Prop :=
  NoDup (map fst l) /\ forall n fs, In (n, Some fs) l -> NoDup fs.
(** everything in the directory itself is a document or a directory *)
Definition no_strays (l : listing) : Prop := forall n, In (n, None) l -> document n.
(** what becomes of a file, if it can be read *)
Definition normal {F D} (load : F -> res D) (save : D -> F) (c : F) : option F :=
  match load c with Ok d => Some (save d) | Raise _ => None end.

(** * Proof *)
Lemma wanted_spec n : wanted n = true <-> document n.
Proof.
  unfold wanted. rewrite orb_true_iff, !endswith_spec. unfold document. split.
  - intros [(s & ->)|(s & ->)]; exists s; auto.
  - intros (s & [->| ->]); [left|right]; now exists s.
Qed.
Lemma suffix_name (e : pystr) r n s : ~ In 47%N e -> r ++ 47%N :: n = s ++ e -> exists s', n = s' ++ e.
Proof.
  intros He. revert n s. induction e as [|c e IH] using rev_ind; intros n s E; [exists n; now rewrite app_nil_r|].
  rewrite app_assoc in E. destruct n as [|d n _] using rev_ind.
  - exfalso. apply app_inj_tail in E as [_ E]. apply He. rewrite E. apply in_app_iff. right. now left.
  - change (47%N :: n ++ [d]) with ((47%N :: n) ++ [d]) in E. rewrite app_assoc in E. apply app_inj_tail in E as [E ->].
    destruct (IH (fun H => He (in_or_app _ _ _ (or_introl H))) n s E) as (s' & ->). exists s'. now rewrite app_assoc.
Qed.
Lemma wanted_path r n : wanted (r ++ 47%N :: n) = wanted n.
Proof.
  apply eq_true_iff_eq. rewrite !wanted_spec. unfold document. split; intros (s & [E|E]).
  - apply suffix_name in E as (s' & ->); [exists s'; auto|intro H; vm_compute in H; intuition discriminate].
  - apply suffix_name in E as (s' & ->); [exists s'; auto|intro H; vm_compute in H; intuition discriminate].
  - exists (r ++ 47%N :: s). left. rewrite E, <- app_assoc. reflexivity.
  - exists (r ++ 47%N :: s). right. rewrite E, <- app_assoc. reflexivity.
Qed.
Lemma wanted_false n : wanted n = false <-> ~ document n.
Proof. rewrite <- wanted_spec. destruct (wanted n); intuition congruence. Qed.

(** the parts of the paths, in the order of the listing *)
Definition names_of (e : pystr * option (list pystr)) : list (list pystr) :=
  if wanted (fst e) then [[fst e]]
  else match snd e with
       | None => []
       | Some fs => map (fun f => [fst e; f]) (filter wanted fs)
       end.
Lemma names_spec l names : In names (flat_map names_of l) <-> selected l names.
Proof.
  rewrite in_flat_map. split.
  - intros ([n k] & Hin & H). unfold names_of in H. cbn [fst snd] in H. destruct (wanted n) eqn:W.
    + destruct H as [<-|[]]. eapply sel_top; [exact Hin|now apply wanted_spec].
    + destruct k as [fs|]; [|destruct H]. apply in_map_iff in H as (f & <- & H). apply filter_In in H as [H Wf].
      eapply sel_sub; [exact Hin|now apply wanted_false|exact H|now apply wanted_spec].
  - intros [n k Hin Hd|n fs f Hin Nd Hf Hd].
    + exists (n, k). split; [assumption|]. unfold names_of. cbn [fst]. apply wanted_spec in Hd. rewrite Hd. now left.
    + exists (n, Some fs). split; [assumption|]. unfold names_of. cbn [fst snd]. apply wanted_false in Nd. rewrite Nd.
      apply in_map_iff. exists f. split; [reflexivity|]. apply filter_In. split; [assumption|now apply wanted_spec].
Qed.
Lemma pairs_eq r root r' root' l : is_root r root -> is_root r' root' -> plain_listing l -> no_strays l ->
  pairs root root' l = Some (map (fun names => (slashed r names, slashed r' names)) (flat_map names_of l)).
Proof.
  intros R R'. induction l as [|[n k] l IH]; intros P St; [reflexivity|]. cbn [pairs].
  destruct (P n k (or_introl eq_refl)) as [Pn Pf].
  rewrite (pjoin_root r root n R Pn), (pjoin_root r' root' n R' Pn), wanted_path, IH;
    [|intros m j H; apply (P m j); now right|intros m H; apply St; now right].
  cbn [flat_map]. rewrite map_app. change (names_of (n, k)) with (if wanted n then [[n]] else match k with None => [] | Some fs => map (fun f => [n; f]) (filter wanted fs) end).
  destruct (wanted n) eqn:W.
  - cbn [option_map map app]. unfold slashed. cbn [flat_map]. now rewrite !app_nil_r.
  - destruct k as [fs|].
    2: { exfalso. apply wanted_false in W. apply W. apply (St n). now left. }
    cbn [option_map]. f_equal. f_equal. rewrite map_map. specialize (Pf fs). clear -Pf R R' Pn.
    induction fs as [|f fs IH]; [reflexivity|]. cbn [map filter fst].
    assert (plain_name f) as Hf by (apply Pf; [reflexivity|now left]).
    rewrite (pjoin_root _ _ f (sub_root r n Pn) Hf), (pjoin_root _ _ f (sub_root r' n Pn) Hf), wanted_path.
    rewrite IH by (intros g E H; apply (Pf g eq_refl); now right). destruct (wanted f); [|reflexivity].
    cbn [map]. unfold slashed. cbn [flat_map]. rewrite !app_nil_r, <- !app_assoc. reflexivity.
Qed.
Lemma selected_plain l names : plain_listing l -> selected l names -> forall n, In n names -> plain_name n.
Proof.
  intros P [n k Hin _|n fs f Hin _ Hf _] m Hm; destruct (P _ _ Hin) as [Pn Pf].
  - destruct Hm as [<-|[]]. exact Pn.
  - destruct Hm as [<-|[<-|[]]]; [exact Pn|now apply (Pf fs)].
Qed.
Lemma names_NoDup l : distinct_listing l -> NoDup (flat_map names_of l).
Proof.
  intros [N S0]. induction l as [|[n k] l IH]; [constructor|]. cbn [flat_map]. cbn in N. inversion N as [|? ? Hn N']; subst.
  apply NoDup_app2.
  - unfold names_of. cbn [fst snd]. destruct (wanted n); [repeat constructor; intros []|]. destruct k as [fs|]; [|constructor].
    apply NoDup_map_inj; [intros x y _ _ E; now injection E|]. apply NoDup_filter. apply (S0 n). now left.
  - apply IH; [assumption|]. intros m fs H. apply (S0 m). now right.
  - intros x Hx Hin. apply in_flat_map in Hin as ([m j] & Hm & Hin). apply Hn.
    assert (forall e, In x (names_of e) -> exists t, x = fst e :: t) as Hd.
    { intros [a b] H. unfold names_of in H. cbn [fst snd] in *. destruct (wanted a); [destruct H as [<-|[]]; now exists []|].
      destruct b as [fs|]; [|destruct H]. apply in_map_iff in H as (f & <- & _). now exists [f]. }
    destruct (Hd _ Hx) as (t & ->). destruct (Hd _ Hin) as (t' & E). cbn in E. injection E as -> _.
    change m with (fst (m, j)). now apply in_map.
Qed.

Section Proof.
  Variables F D : Type.
  Variable load : F -> res D.
  Variable save : D -> F.
  Variable valid : F -> bool.
  Variable writable : pystr -> bool.
  Notation normal := (normal load save).
  Notation batch := (batch F D load save valid writable).
  Notation normalize := (normalize F D load save valid writable).

  (** the batch: [ps] with different outputs, none of them the input of another *)
  Definition apart (ps : list (pystr * pystr)) : Prop :=
    NoDup (map snd ps) /\ forall a b, In a ps -> In b ps -> snd a = fst b -> a = b.
  Definition done (ps : list (pystr * pystr)) (files files' : list (pystr * F)) : Prop :=
    (forall fi fo, In (fi, fo) ps ->
       dget streq files' fo = match dget streq files fi with
                              | Some c => match normal c with Some c' => Some c' | None => dget streq files fo end
                              | None => dget streq files fo
                              end) /\
    forall p, (forall fi, ~ In (fi, p) ps) -> dget streq files' p = dget streq files p.
  Lemma batch_done ps : forall files, apart ps -> (forall p, In p ps -> writable (snd p) = true) ->
    exists files', batch false ps files = (files', None) /\ done ps files files'.
  Proof.
    induction ps as [|[fi fo] ps IH]; intros files [N A] W.
    - exists files. split; [reflexivity|]. split; [intros ? ? []|reflexivity].
    - cbn in N. inversion N as [|? ? Hfo N']; subst.
      assert (apart ps) as A' by (split; [assumption|intros a b Ha Hb; apply A; now right]).
      assert (forall p, In p ps -> writable (snd p) = true) as W' by (intros p H; apply W; now right).
      assert (forall fi', ~ In (fi', fo) ps) as No.
      { intros fi' H. apply Hfo. change fo with (snd (fi', fo)). now apply in_map. }
      assert (forall f1 f2, In (f1, f2) ps -> f1 <> fo) as Ni.
      { intros f1 f2 H ->. assert ((fi, fo) = (fo, f2)) as E by (apply A; [now left|now right|reflexivity]). injection E as -> <-. eapply No, H. }
      assert (forall files1, (forall p, p <> fo -> dget streq files1 p = dget streq files p) ->
        dget streq files1 fo = match dget streq files fi with
          | Some c => match normal c with Some c' => Some c' | None => dget streq files fo end
          | None => dget streq files fo end ->
        batch false ((fi, fo) :: ps) files = batch false ps files1 ->
        exists files', batch false ((fi, fo) :: ps) files = (files', None) /\ done ((fi, fo) :: ps) files files') as Step.
      { intros files1 O Hd Eb. destruct (IH files1 A' W') as (files' & E & D1 & D2). exists files'. split; [now rewrite Eb|]. split.
        - intros f1 f2 [E1|Hin]; [injection E1 as <- <-; now rewrite D2|].
          rewrite (D1 f1 f2 Hin), (O f1 (Ni _ _ Hin)), (O f2); [reflexivity|]. intros ->. eapply No, Hin.
        - intros p Hp. assert (p <> fo) as Np by (intros ->; apply (Hp fi); now left).
          rewrite D2, (O p Np); [reflexivity|]. intros f1 H. apply (Hp f1). now right. }
      unfold T_NormalizeAll.normal in *. destruct (dget streq files fi) as [c|] eqn:Ec.
      + destruct (load c) as [d|] eqn:El.
        * apply (Step (dset streq files fo (save d))).
          -- intros p Np. now apply (dget_dset_other _ streq_spec).
          -- now rewrite (dget_dset_same _ streq_spec).
          -- cbn [M_NormalizeAll.batch]. rewrite Ec, El. pose proof (W (fi, fo) (or_introl eq_refl)) as Wf. cbn [snd] in Wf. now rewrite Wf.
        * apply (Step files); [reflexivity|reflexivity|]. cbn [M_NormalizeAll.batch]. now rewrite Ec, El.
      + apply (Step files); [reflexivity|reflexivity|]. cbn [M_NormalizeAll.batch]. now rewrite Ec.
  Qed.
  Lemma slashed_names_inj l r a b : plain_listing l -> selected l a -> selected l b -> slashed r a = slashed r b -> a = b.
  Proof. intros P Ha Hb E. eapply slashed_inj; [eapply selected_plain; eassumption|eapply selected_plain; eassumption|exact E]. Qed.

  (** ** C89: in place: the documents of the directory and one level below that can be read are
      replaced by their normal form, and no other file is changed; so the order in which the
      system lists directories does not matter *)
  Theorem C89_in_place : forall r root l files,
    is_root r root -> plain_listing l -> distinct_listing l -> no_strays l -> (forall p, writable p = true) ->
    exists files', normalize false root None (Some l) files = (files', None) /\
      (forall names c, selected l names -> dget streq files (slashed r names) = Some c ->
         dget streq files' (slashed r names) = Some (match normal c with Some c' => c' | None => c end)) /\
      (forall p, (forall names, selected l names -> p <> slashed r names) \/ dget streq files p = None ->
         dget streq files' p = dget streq files p).
  Proof.
    intros r root l files R P Di St W. unfold M_NormalizeAll.normalize.
    rewrite (pairs_eq r root r root l R R P St).
    destruct (batch_done (map (fun names => (slashed r names, slashed r names)) (flat_map names_of l)) files) as (files' & E & D1 & D2).
    - split.
      + rewrite map_map. cbn [snd]. apply NoDup_map_inj; [|now apply names_NoDup]. intros a b Ha Hb. apply names_spec in Ha. apply names_spec in Hb. now apply slashed_names_inj with (l := l).
      + intros a b Ha Hb Eab. apply in_map_iff in Ha as (x & <- & _). apply in_map_iff in Hb as (y & <- & _). cbn in *. now rewrite Eab.
    - intros p _. apply W.
    - exists files'. split; [exact E|]. split.
      + intros names c Hs Hc. rewrite (D1 (slashed r names) (slashed r names)).
        * rewrite Hc. destruct (normal c); reflexivity.
        * apply in_map_iff. exists names. split; [reflexivity|now apply names_spec].
      + intros p [H|H].
        * apply D2. intros fi Hin. apply in_map_iff in Hin as (names & Ep & Hn). injection Ep as _ <-. apply names_spec in Hn. now apply (H names Hn).
        * destruct (in_dec (list_eq_dec N.eq_dec) p (map (slashed r) (flat_map names_of l))) as [I|NI].
          -- apply in_map_iff in I as (names & <- & Hn). rewrite (D1 (slashed r names) (slashed r names)); [now rewrite H|].
             apply in_map_iff. exists names. split; [reflexivity|assumption].
          -- apply D2. intros fi Hin. apply in_map_iff in Hin as (names & Ep & Hn). injection Ep as _ <-. apply NI. now apply in_map.
  Qed.

  (** ** C89: elsewhere: each document that can be read has its normal form at the same place
      below the other directory, and nothing else is changed, in particular no input *)
  Theorem C89_elsewhere : forall r root r' root' l files,
    is_root r root -> is_root r' root' -> (forall a b, slashed r a <> slashed r' b) -> root' <> [] ->
    plain_listing l -> distinct_listing l -> no_strays l -> (forall p, writable p = true) ->
    exists files', normalize false root (Some root') (Some l) files = (files', None) /\
      (forall names c c', selected l names -> dget streq files (slashed r names) = Some c -> normal c = Some c' ->
         dget streq files' (slashed r' names) = Some c') /\
      (forall p, (forall names c c', selected l names -> dget streq files (slashed r names) = Some c -> normal c = Some c' ->
                    p <> slashed r' names) ->
         dget streq files' p = dget streq files p).
  Proof.
    intros r root r' root' l files R R' Ap Nr P Di St W. unfold M_NormalizeAll.normalize.
    assert (match root' with c :: o => c :: o | [] => root end = root') as Er by (destruct root'; [congruence|reflexivity]).
    rewrite Er, (pairs_eq r root r' root' l R R' P St).
    destruct (batch_done (map (fun names => (slashed r names, slashed r' names)) (flat_map names_of l)) files) as (files' & E & D1 & D2).
    - split.
      + rewrite map_map. cbn [snd]. apply NoDup_map_inj; [|now apply names_NoDup]. intros a b Ha Hb. apply names_spec in Ha. apply names_spec in Hb. now apply slashed_names_inj with (l := l).
      + intros a b Ha Hb Eab. apply in_map_iff in Ha as (x & <- & _). apply in_map_iff in Hb as (y & <- & _). cbn in *. exfalso. now apply (Ap y x).
    - intros p _. apply W.
    - exists files'. split; [exact E|]. split.
      + intros names c c' Hs Hc Hn. rewrite (D1 (slashed r names) (slashed r' names)).
        * now rewrite Hc, Hn.
        * apply in_map_iff. exists names. split; [reflexivity|now apply names_spec].
      + intros p H. destruct (in_dec (list_eq_dec N.eq_dec) p (map (slashed r') (flat_map names_of l))) as [I|NI].
        * apply in_map_iff in I as (names & <- & Hn). rewrite (D1 (slashed r names) (slashed r' names));
            [|apply in_map_iff; exists names; split; [reflexivity|assumption]].
          apply names_spec in Hn. destruct (dget streq files (slashed r names)) as [c|] eqn:Ec; [|reflexivity].
          destruct (normal c) as [c'|] eqn:Ecc; [|reflexivity]. exfalso. now apply (H names c c').
        * apply D2. intros fi Hin. apply in_map_iff in Hin as (names & Ep & Hn). injection Ep as _ <-. apply NI. now apply in_map.
  Qed.

  (** ** C89: a second time nothing changes, if a normal form reads as it was written *)
  Theorem C89_again : forall r root l files files' files'',
    is_root r root -> plain_listing l -> distinct_listing l -> no_strays l -> (forall p, writable p = true) ->
    (forall c d, load c = Ok d -> normal (save d) = Some (save d)) ->
    normalize false root None (Some l) files = (files', None) ->
    normalize false root None (Some l) files' = (files'', None) -> forall p, dget streq files'' p = dget streq files' p.
  Proof.
    intros r root l files files' files'' R P Di St W Id E1 E2 p.
    destruct (C89_in_place r root l files R P Di St W) as (f1 & H1 & A1 & B1). rewrite E1 in H1. injection H1 as <-.
    destruct (C89_in_place r root l files' R P Di St W) as (f2 & H2 & A2 & B2). rewrite E2 in H2. injection H2 as <-.
    destruct (in_dec (list_eq_dec N.eq_dec) p (map (slashed r) (flat_map names_of l))) as [I|NI].
    - apply in_map_iff in I as (names & <- & Hn). apply names_spec in Hn.
      destruct (dget streq files (slashed r names)) as [c|] eqn:Ec.
      + pose proof (A1 names c Hn Ec) as Hc. rewrite (A2 names _ Hn Hc), Hc. f_equal.
        unfold T_NormalizeAll.normal in *. destruct (load c) as [d|] eqn:El.
        * specialize (Id c d El). destruct (load (save d)); congruence.
        * now rewrite El.
      + apply B2. right. rewrite B1 by now right. exact Ec.
    - apply B2. left. intros names Hn ->. apply NI. apply in_map. now apply names_spec.
  Qed.

  (** ** C89: one file of another kind in the directory and nothing is done, with an error *)
  Theorem C89_stray_refuted : forall validate r root out l files n,
    is_root r root -> plain_listing l -> In (n, None) l -> ~ document n ->
    normalize validate root out (Some l) files = (files, Some NotDir).
  Proof.
    intros validate r root out l files n R P Hin Nd. unfold M_NormalizeAll.normalize.
    assert (pairs root match out with Some (c :: o) => c :: o | _ => root end l = None) as ->; [|reflexivity].
    generalize (match out with Some (c :: o) => c :: o | _ => root end). intro root'.
    induction l as [|[m k] l IH]; [destruct Hin|]. cbn [pairs].
    destruct Hin as [E|Hin].
    - injection E as -> ->. destruct (P n None (or_introl eq_refl)) as [Pn _].
      rewrite (pjoin_root r root n R Pn), wanted_path. apply wanted_false in Nd. now rewrite Nd.
    - rewrite IH; [|intros a b H; apply P; now right|exact Hin]. destruct (wanted (pjoin root m)); [reflexivity|]. now destruct k.
  Qed.

  (** ** C89: the script stops at the first document whose output has no directory; those before
      it are written, those after it are not *)
  Theorem C89_stops : forall validate pre fi fo post files files' c d,
    batch validate pre files = (files', None) -> dget streq files' fi = Some c -> load c = Ok d -> writable fo = false ->
    batch validate (pre ++ (fi, fo) :: post) files = (files', Some NoOut).
  Proof.
    intros validate pre fi fo post. induction pre as [|[a b] pre IH]; intros files files' c d E Hc Hd Hw.
    - injection E as <-. cbn [app M_NormalizeAll.batch]. now rewrite Hc, Hd, Hw.
    - cbn [app M_NormalizeAll.batch] in *. destruct (dget streq files a) as [ca|]; [|now apply (IH _ _ c d)].
      destruct (load ca) as [da|]; [|now apply (IH _ _ c d)]. destruct (writable b); [|discriminate].
      destruct validate; [|now apply (IH _ _ c d)]. cbv zeta in *.
      destruct (match dget streq (dset streq files b (save da)) a with Some c0 => valid c0 | None => false end); [|discriminate].
      now apply (IH _ _ c d).
  Qed.

  (** ** C89: with another output it is the input that is validated, not what was written *)
  Theorem C89_validate_refuted : forall fi fo files c d, fo <> [] -> fi <> fo ->
    dget streq files fi = Some c -> load c = Ok d -> writable fo = true ->
    normalize true fi (Some fo) None files = (dset streq files fo (save d), if valid c then None else Some Invalid).
  Proof.
    intros fi fo files c d Nf Ne Hc Hd Hw. unfold M_NormalizeAll.normalize. destruct fo as [|x fo]; [congruence|].
    cbn [M_NormalizeAll.batch]. rewrite Hc, Hd, Hw. cbv zeta. rewrite (dget_dset_other _ streq_spec) by congruence. rewrite Hc. now destruct (valid c).
  Qed.
  (** in place it is what was written *)
  Theorem C89_validate : forall f files c d,
    dget streq files f = Some c -> load c = Ok d -> writable f = true ->
    normalize true f None None files = (dset streq files f (save d), if valid (save d) then None else Some Invalid).
  Proof.
    intros f files c d Hc Hd Hw. unfold M_NormalizeAll.normalize. cbn [M_NormalizeAll.batch]. rewrite Hc, Hd, Hw. cbv zeta.
    rewrite (dget_dset_same _ streq_spec). now destruct (valid (save d)).
  Qed.
End Proof.

(** * The hypotheses are met: documents are numbers, odd ones cannot be read, and are written doubled *)
Definition ex_listing : listing := [(lit "r.xml", None); (lit "a", Some [lit "aa.xml"; lit "notes"; lit "ab.ldml"]); (lit "b", Some [])].
Definition ex_nload (c : nat) : res nat := if Nat.even c then Ok c else Raise SyntaxErr.
Definition ex_nfiles : list (pystr * nat) := [(lit "t/r.xml", 2); (lit "t/a/aa.xml", 3); (lit "t/a/ab.ldml", 4); (lit "t/a/notes", 6)].
Example C89_met : is_root (lit "t") (lit "t") /\ plain_listing ex_listing /\ distinct_listing ex_listing /\ no_strays ex_listing /\
  (forall a b, slashed (lit "t") a <> slashed (lit "u") b) /\
  normalize nat nat ex_nload (fun d => d + d) (fun _ => true) (fun _ => true) false (lit "t") None (Some ex_listing) ex_nfiles =
    ([(lit "t/r.xml", 4); (lit "t/a/aa.xml", 3); (lit "t/a/ab.ldml", 8); (lit "t/a/notes", 6)], None) /\
  normalize nat nat ex_nload (fun d => d + d) (fun _ => true) (fun _ => true) false (lit "t") (Some (lit "u")) (Some ex_listing) ex_nfiles =
    (ex_nfiles ++ [(lit "u/r.xml", 4); (lit "u/a/ab.ldml", 8)], None).
Proof.
  split.
  { right. split; [reflexivity|]. split; [discriminate|]. intros s E. destruct s as [|c s]; [discriminate|]. cbn in E. injection E as _ E. destruct s; discriminate. }
  split.
  { intros n k [H|[H|[H|[]]]]; injection H as <- <-;
      (split; [apply plain_dec; reflexivity|intros fs f E; (discriminate || (injection E as <-; apply plain_all; reflexivity))]). }
  split.
  { split; [apply nodup_dec; reflexivity|]. intros n fs [H|[H|[H|[]]]]; try discriminate; injection H as <- <-; apply nodup_dec; reflexivity. }
  split.
  { intros n [H|[H|[H|[]]]]; try discriminate. injection H as <-. apply wanted_spec. reflexivity. }
  split; [intros a b E; discriminate|]. split; vm_compute; reflexivity.
Qed.
