(** C63, continued: the text written, documents just loaded, and where writing loses something. *)
From Coq Require Import String.
From Verif Require Import Py PyFacts M_LdmlBase M_TreeBuilder M_Serialize M_Normalise S_Xml M_Drafts M_WriteDrafts
  T_LdmlBase T_LdmlHash T_Collation2 T_TreeBuilder T_Normalise P_Serialize T_Serialize T_Drafts T_Promote T_WriteDrafts.
Local Open Scope list_scope.
Local Open Scope nat_scope.

(** Names, values and texts that can be written, as for C28; also the names of the alternates. *)
Inductive good_wnode (w : writer) : wnode -> Prop :=
| GoodW t a x b l kids :
    good_name (w_ns w) t ->
    NoDup (map fst a) ->
    Forall (fun kv => good_name (w_ns w) (fst kv) /\ good_value (snd kv)) a ->
    match x with
    | Some s => good_text s /\ (cdata_tag w t -> no_cdend s)
    | None => True
    end ->
    (forall al, l = Some al ->
       NoDup (map fst al) /\ Forall (fun kv => good_value (fst kv) /\ good_wnode w (snd kv)) al) ->
    Forall (good_wnode w) kids ->
    good_wnode w (WNode t a x b l kids).

Lemma good_wf w n : good_wnode w n -> wf n.
Proof.
  induction n as [t a x b l k IHl IHk] using wnode_ind'. intro G.
  inversion G as [t0 a0 x0 b0 l0 k0 Gt Na Ga Gx Gl Gk]. subst. constructor; [assumption| |].
  - intros al ->. destruct (Gl _ eq_refl) as [N F]. split; [exact N|].
    rewrite Forall_forall in *. intros kv Hkv. apply IHl; [assumption|]. now apply F.
  - rewrite Forall_forall in *. auto.
Qed.

Section Good.
  Variable dd silid : pystr.
  Variable w : writer.
  Notation wr := (wr dd silid).

  Lemma good_alt_text p k : good_value p -> good_value k -> good_value (alt_text p k).
  Proof.
    intros Hp Hk. unfold alt_text. destruct p as [|c p]; [exact Hk|].
    unfold good_value in *. apply Forall_app. split; [exact Hp|]. apply Forall_app. split; [|exact Hk].
    repeat constructor; discriminate.
  Qed.
  Lemma in_out_attrs seta t a k key v : NoDup (map fst a) ->
    In (key, v) (out_attrs dd silid seta t a k) -> In (key, v) a \/ (key = lit "alt" /\ seta = Some v).
  Proof.
    intros N H. destruct (attrs_written_out dd silid seta t a k N) as (_ & A1 & A2 & A3).
    destruct (streq_spec key (lit "draft")) as [->|Nd]; [left; apply A3 in H; tauto|].
    destruct (streq_spec key (lit "alt")) as [->|Na]; [|left; now apply A1].
    apply A2 in H. destruct seta as [s|]; [right; subst; auto|now left].
  Qed.
  Lemma alt_name_good : good_name (w_ns w) (lit "alt").
  Proof. left. repeat split; try (cbn; intuition discriminate); repeat constructor. Qed.

  Lemma good_written n : forall seta, good_wnode w n ->
    (forall s, seta = Some s -> good_value s) -> good_node w (fst (wr seta n)).
  Proof.
    induction n as [t a x b l k IH] using walts_ind. intros seta G Hs.
    inversion G as [t0 a0 x0 b0 l0 k0 Gt Na Ga Gx Gl Gk]. subst.
    rewrite wr_eq. cbn zeta. cbn [fst].
    assert (forall key v, In (key, v) (out_attrs dd silid seta t a k) ->
              good_name (w_ns w) key /\ good_value v) as GA.
    { intros key v H. apply in_out_attrs in H; [|assumption]. rewrite Forall_forall in Ga.
      destruct H as [H|[-> ->]]; [exact (Ga _ H)|]. split; [apply alt_name_good|auto]. }
    constructor; auto.
    - now apply out_attrs_NoDup.
    - apply Forall_forall. intros [key v]. apply GA.
    - set (attrs := out_attrs dd silid seta t a k) in *.
      assert (good_value (alt_of attrs)) as Gal.
      { unfold alt_of. destruct (dget streq attrs (lit "alt")) as [p|] eqn:E; [|constructor].
        apply (dget_In _ streq_spec) in E. now apply GA in E. }
      rewrite Forall_forall in *. intros o Ho. rewrite concat_map_map, map_map in Ho.
      apply in_concat in Ho as (g & Hg & Ho). apply in_map_iff in Hg as (c & <- & Hc).
      destruct (IH c Hc) as [IHc IHa]. specialize (Gk c Hc).
      rewrite group_eq in Ho. cbn [fst snd map] in Ho. destruct Ho as [<-|Ho].
      { apply IHc; [assumption|discriminate]. }
      rewrite map_map in Ho. apply in_map_iff in Ho as ([key v] & <- & Hkv). cbn [fst snd].
      apply in_isort in Hkv. unfold alist in Hkv. destruct (walts c) as [al|] eqn:El; [|destruct Hkv].
      inversion Gk as [t1 a1 x1 b1 l1 k1 _ _ _ _ Gl' _]. subst c. cbn [walts] in El.
      destruct (Gl' _ El) as [_ F]. rewrite Forall_forall in F, IHa. destruct (F _ Hkv) as [F1 F2].
      apply (IHa _ Hkv); [exact F2|]. intros s Es. injection Es as <-. now apply good_alt_text.
  Qed.
End Good.

(** The text of a document: saving it again, at any time later and whatever else was saved in
    between, writes the same text. The text can be read and gives the elements of [writes]. *)
Theorem C63_saves : forall dd silid ws w root,
  ws 32%N = true /\ ws 9%N = true /\ ws 10%N = true ->
  good_ns (w_ns w) -> good_wnode w root -> clean_doc root ->
  exists out root' s x,
    writes dd silid None root out
    /\ same_doc false root root'
    /\ xml_read s = Some x /\ reads_as ws out x
    /\ (forall cnt nss, exists nss', save dd silid w true true root cnt nss = Ok (cnt, nss', s, root'))
    /\ (forall cnt nss, exists nss', save dd silid w true true root' cnt nss = Ok (cnt, nss', s, root')).
Proof.
  intros dd silid ws w root Hw Gn G C. pose proof (good_wf _ _ G) as W.
  assert (good_node w (fst (wr dd silid None root))) as GO by (apply good_written; [assumption|discriminate]).
  destruct (C28_round_trip ws Hw w _ 0 [] Gn GO) as (nss0 & s & x & E0 & R & RA).
  exists (fst (wr dd silid None root)), (snd (wr dd silid None root)), s, x.
  assert (forall cnt nss, exists nss', serialize w true (fst (wr dd silid None root)) cnt nss = Ok (cnt, nss', s)) as HS.
  { intros cnt nss. destruct (C51_history_independent w _ 0 [] cnt nss Gn GO) as (s' & n1 & n2 & E1 & E2).
    assert (s' = s) by congruence. subst. eauto. }
  split; [now apply C63_written|]. split; [now apply C63_unchanged|]. split; [assumption|]. split; [assumption|].
  split; intros cnt nss; destruct (HS cnt nss) as (nss' & E); exists nss'; unfold save.
  - destruct (wr dd silid None root) as [o r]. cbn [fst snd] in *. rewrite E. reflexivity.
  - rewrite C63_again by assumption. destruct (wr dd silid None root) as [o r]. cbn [fst snd] in *. rewrite E. reflexivity.
Qed.

(** * Documents that were never written *)
Lemma lnode_ind' (P : lnode -> Prop) :
  (forall t a x h c l k, match l with Some l => Forall (fun kv => P (snd kv)) l | None => True end ->
     Forall P k -> P (LNode t a x h c l k)) -> forall n, P n.
Proof.
  intro H. fix IH 1. intros [t a x h c l k]. apply H.
  - destruct l as [l|]; [|exact I].
    induction l as [|[key v] l IHl]; constructor; [apply IH|assumption].
  - induction k as [|y k IHk]; constructor; [apply IH|assumption].
Qed.
Lemma fresh_temp n : wtemp (fresh n) = false.
Proof. now destruct n. Qed.
Theorem C63_fresh_clean : forall n, clean_doc (fresh n).
Proof.
  induction n as [t a x h c l k IHl IHk] using lnode_ind'. cbn [fresh]. constructor.
  - intros al E. destruct l as [l|]; [|discriminate]. injection E as <-.
    apply Forall_map. eapply Forall_impl; [|exact IHl]. now intros [].
  - apply Forall_map. eapply Forall_impl; [|exact IHk]. cbn. intros y Hy. split; [apply fresh_temp|exact Hy].
Qed.

(** A document as read from a file: every element has each attribute once. *)
Inductive unique_attrs : node -> Prop :=
| Unique t a x k : NoDup (map fst a) -> Forall unique_attrs k -> unique_attrs (Node t a x k).
Lemma pack_kids_from m dd cs o : In dd alldrafts -> In o (pack_kids m dd cs) ->
  exists c, In c cs /\ (o = c \/ exists al, o = set_alts c (Some al) /\ NoDup (dkeys al) /\
                                     forall a x, In (a, x) al -> In x cs).
Proof.
  intros D H. destruct (C23_packing m dd cs D) as (keep & prim & [P1 P2 P3 P4]).
  apply In_nth_error in H as [i Hi]. destruct (Forall2_nth_r _ _ _ _ _ _ _ P4 Hi) as (k & _ & c & Hc & Hcase).
  exists c. split; [eapply nth_error_In; eassumption|].
  destruct Hcase as [[_ ->]|[_ (al & -> & N & F)]]; [now left|right]. exists al. split; [reflexivity|].
  split; [exact N|]. intros a x Hx. apply F in Hx as (j & [Hj _] & _). eapply nth_error_In; eassumption.
Qed.
Theorem C63_loaded : forall ws lower hasher m dd n, In dd alldrafts -> unique_attrs n ->
  wf (fresh (load ws lower hasher m dd true n)).
Proof.
  intros ws lower hasher m dd n D. induction n as [t a x k IH] using node_ind'. intro U.
  inversion U as [t0 a0 x0 k0 Na Uk]. subst. cbn [load].
  destruct (calc_hashes _ _ _ _ _ _ _) as [ah ch]. cbn [fresh]. constructor; [assumption|discriminate|].
  apply Forall_map, Forall_forall. intros o Ho. apply pack_kids_from in Ho; [|assumption].
  assert (forall c, In c (isort (fun x y => el_leb lower m t (shell x) (shell y)) (map (load ws lower hasher m dd true) k))
            -> wf (fresh c)) as HK.
  { intros c Hc. apply in_isort, in_map_iff in Hc as (c0 & <- & Hc0). rewrite Forall_forall in IH, Uk. auto. }
  destruct Ho as (c & Hc & [->|(al & -> & N & F)]); [auto|].
  pose proof (HK c Hc) as W. destruct c as [ct ca cx cah cch cl ck]. cbn [set_alts fresh] in *.
  inversion W as [t1 a1 x1 b1 l1 k1 Nc Wl Wk]. subst. constructor; [assumption| |assumption].
  intros al' E. injection E as <-. split.
  - rewrite map_map. replace (map _ al) with (map fst al); [exact N|]. apply map_ext. now intros [].
  - apply Forall_map, Forall_forall. intros [key v] Hkv. cbn [snd]. apply HK. eapply F; eassumption.
Qed.

(** * Where it fails *)

(** The mark is never taken off. An alternate that was written once and is then promoted to
    take the place of its element is written once more and then dropped from the document:
    it is missing from the text after that. *)
Lemma wpromote_temp old new alt : wtemp (wpromote old new alt) = wtemp new.
Proof. unfold wpromote. destruct (dget streq (wattrs new) (lit "alt")); now destruct new. Qed.
Theorem C63_promoted_lost_refuted : forall dd silid n pre c post al key v alt,
  wf n -> clean_doc n ->
  let n1 := snd (wr dd silid None n) in                              (* the document was saved *)
  wkids n1 = pre ++ c :: post -> walts c = Some al -> In (key, v) al ->
  let n2 := wset_kids n1 (pre ++ wpromote c v alt :: post) in        (* v is promoted *)
  let n3 := snd (wr dd silid None n2) in                             (* and the document saved *)
  List.length (wkids n3) = List.length pre + List.length post.
Proof.
  intros dd silid n pre c post al key v alt W C n1 Hk El Hv n2 n3.
  assert (wtemp v = true /\ Forall (fun c => wtemp c = false) (wkids n1)) as [Tv Tk].
  { unfold n1 in *. destruct n as [t a x b l k]. rewrite (wr_left _ _ _ _ _ _ _ _ _ C) in *. cbn zeta in *.
    cbn [wkids] in *. inversion C as [t1 a1 x1 b1 l1 k1 Cl Ck]. subst. split.
    - assert (In c (map (left_kid dd silid (alt_of (out_attrs dd silid None t a k))) k)) as Hc.
      { rewrite Hk. apply in_app_iff. right. now left. }
      apply in_map_iff in Hc as (c0 & <- & Hc0). unfold left_kid in El. rewrite group_eq in El. cbn [fst snd] in El.
      destruct (walts c0) as [al0|] eqn:E0.
      + rewrite walts_wset in El. injection El as <-. apply in_map_iff in Hv as (kv & E & _).
        injection E as _ <-. apply mark_temp.
      + rewrite walts_wr in El. congruence.
    - apply Forall_map. rewrite Forall_forall in Ck |- *. intros c0 Hc0. rewrite left_kid_temp. now apply Ck. }
  rewrite Hk in Tk. apply Forall_app in Tk as [T1 T2]. inversion T2 as [|c0 p0 Tc T3]. subst c0 p0.
  unfold n3, n2. destruct n1 as [t a x b l k]. cbn [wset_kids]. rewrite wr_eq. cbn zeta. cbn [snd wkids].
  rewrite left_kids, map_length, filter_app. cbn [filter]. rewrite wpromote_temp, Tv. cbn [negb].
  assert (forall l : list wnode, Forall (fun c => wtemp c = false) l -> filter (fun c => negb (wtemp c)) l = l) as FF.
  { induction 1 as [|y l' Hy _ IH]; cbn; [reflexivity|]. rewrite Hy. cbn. now rewrite IH. }
  rewrite app_length, !FF by assumption. reflexivity.
Qed.

(** A concrete history: load, save, promote, save, save. *)
Definition ex_ws (c : N) : bool := N.eqb c 32 || N.eqb c 9 || N.eqb c 10.
Definition ex_load (n : node) : wnode :=
  fresh (load ex_ws (fun s => s) ex_hash T_LdmlHash.ex_meta (lit "unconfirmed") true n).
Definition ex_silid : pystr := siltag (lit "identity").
Notation ex_wr := (wr (lit "unconfirmed") ex_silid None).
Definition el (t : string) (a : list (string * string)) (k : list node) : node :=
  Node (lit t) (map (fun kv => (lit (fst kv), lit (snd kv))) a) None k.
Definition txt (t : string) (a : list (string * string)) (s : string) : node :=
  Node (lit t) (map (fun kv => (lit (fst kv), lit (snd kv))) a) (Some (lit s)) [].
Definition ex_file : node :=
  el "ldml" [] [ txt "month" [("type", "1")] "jan"; txt "month" [("type", "1"); ("alt", "x"); ("draft", "approved")] "Jan";
                 txt "year" [("type", "2"); ("draft", "unconfirmed")] "feb" ]%string.
Definition text_of (n : node) : option pystr :=
  match serialize ex_writer true n 0 [] with Ok (_, _, s) => Some s | Raise _ => None end.
Definition promote_first (n : wnode) : wnode :=
  match wkids n with
  | c :: k => match walts c with
              | Some ((_, v) :: _) => wset_kids n (wpromote c v (lit "y") :: k)
              | _ => n
              end
  | _ => n
  end.

Example C63_ex_saves :
  let d := ex_load ex_file in
  wf d /\ clean_doc d
  /\ text_of (fst (ex_wr d)) = text_of (el "ldml" []
       [ txt "month" [("type", "1")] "jan"; txt "month" [("type", "1"); ("alt", "x"); ("draft", "approved")] "Jan";
         txt "year" [("type", "2")] "feb" ]%string).
Proof.
  cbn zeta. split; [|split; [apply C63_fresh_clean|vm_compute; reflexivity]].
  apply C63_loaded; [cbn [alldrafts In]; auto|].
  unfold ex_file, el, txt. repeat constructor; cbn [map fst In]; intuition;
    match goal with H : lit _ = lit _ |- _ => apply streq_true in H; vm_compute in H; discriminate end.
Qed.
Example C63_ex_good : good_ns (w_ns ex_writer) /\ good_wnode ex_writer (ex_load ex_file).
Proof.
  split; [exact ex_writer_ns|].
  assert (forall k, In k [lit "ldml"; lit "month"; lit "year"; lit "type"; lit "alt"; lit "draft"] -> good_name (w_ns ex_writer) k) as Hp.
  { intros k H. left. cbn in H.
    repeat (destruct H as [<-|H]; [repeat split; try (cbn; intuition discriminate); repeat constructor|]).
    destruct H. }
  assert (forall s, forallb (fun c => xml_char c && negb (N.eqb c 9) && negb (N.eqb c 10)) s = true -> good_value s) as Hv.
  { intros s H. apply Forall_forall. intros c Hc. rewrite forallb_forall in H. specialize (H c Hc).
    apply andb_prop in H as [H H10]. apply andb_prop in H as [H H9].
    apply negb_true_iff, N.eqb_neq in H10. apply negb_true_iff, N.eqb_neq in H9. auto. }
  assert (forall s, forallb xml_char s = true -> good_text s) as Hx.
  { intros s H. apply Forall_forall. now apply forallb_forall. }
  assert (forall s, good_text s /\ no_cdend s -> forall P : Prop, good_text s /\ (P -> no_cdend s)) as Hc by tauto.
  assert (forall t a x b l k, forallb (fun kv => memstr (fst kv) [lit "type"; lit "alt"; lit "draft"]
              && forallb (fun c => xml_char c && negb (N.eqb c 9) && negb (N.eqb c 10)) (snd kv)) a = true ->
            memstr t [lit "ldml"; lit "month"; lit "year"] = true -> NoDup (map fst a) ->
            match x with Some s => good_text s /\ no_cdend s | None => True end ->
            (forall al, l = Some al -> NoDup (map fst al) /\ Forall (fun kv => good_value (fst kv) /\ good_wnode ex_writer (snd kv)) al) ->
            Forall (good_wnode ex_writer) k -> good_wnode ex_writer (WNode t a x b l k)) as HG.
  { intros t a x b l k H1 H2 H3 H4 H5 H6. constructor; auto.
    - apply Hp. apply memstr_iff in H2. cbn [In] in *. tauto.
    - apply Forall_forall. intros [key v] Hkv. rewrite forallb_forall in H1. specialize (H1 _ Hkv).
      cbn [fst snd] in *. apply andb_prop in H1 as [H1 H1']. split; [|now apply Hv].
      apply Hp. apply memstr_iff in H1. cbn [In] in *. tauto.
    - destruct x as [s|]; [|exact I]. tauto. }
  assert (ex_load ex_file = WNode (lit "ldml") [] None false None
    [ WNode (lit "month") [(lit "type", lit "1")] (Some (lit "jan")) false
        (Some [(lit "x", WNode (lit "month") [(lit "type", lit "1"); (lit "alt", lit "x"); (lit "draft", lit "approved")]
                           (Some (lit "Jan")) false None [])]) [];
      WNode (lit "year") [(lit "type", lit "2"); (lit "draft", lit "unconfirmed")] (Some (lit "feb")) false (Some []) [] ]) as ->
    by (vm_compute; reflexivity).
  assert (forall (A : Type) (l : list (pystr * A)), (fix nd l := match l with [] => true | x :: l' => negb (memstr x l') && nd l' end) (map fst l) = true -> NoDup (map fst l)) as ND.
  { intros A l. generalize (map fst l) as ks. induction ks as [|k ks IH]; intro H; constructor.
    - apply andb_prop in H as [H _]. apply negb_true_iff in H. intro Hin. apply memstr_iff in Hin. congruence.
    - apply andb_prop in H as [_ H]. auto. }
  apply HG; [reflexivity|reflexivity|constructor|exact I|discriminate|].
  constructor; [|constructor; [|constructor]]; apply HG; try (vm_compute; reflexivity); try (apply ND; vm_compute; reflexivity);
    try (split; [now apply Hx|now apply no_cdend_check]); try (constructor; fail); intros al E; injection E as <-.
  - split; [apply ND; reflexivity|]. constructor; [|constructor]. cbn [fst snd]. split; [now apply Hv|].
    apply HG; try (vm_compute; reflexivity); try (apply ND; vm_compute; reflexivity);
      try (split; [now apply Hx|now apply no_cdend_check]); try (constructor; fail). discriminate.
  - split; constructor.
Qed.

Example C63_ex_promoted_lost :
  let d1 := snd (ex_wr (ex_load ex_file)) in
  let d2 := promote_first d1 in
  let d3 := snd (ex_wr d2) in
  text_of (fst (ex_wr d2)) = text_of (el "ldml" []
       [ txt "month" [("type", "1"); ("draft", "approved")] "Jan"; txt "month" [("type", "1"); ("alt", "y")] "jan";
         txt "year" [("type", "2")] "feb" ]%string)
  /\ text_of (fst (ex_wr d3)) = text_of (el "ldml" [] [ txt "year" [("type", "2")] "feb" ]%string).
Proof. split; vm_compute; reflexivity. Qed.

(** The alt of an alternate below an element with an alt grows every time the file is read and
    written. *)
Definition ex_nested (alt : string) : node :=
  el "ldml" [] [ el "g" [("alt", "p")] [ txt "y" [] "a"; txt "y" [("alt", alt)] "b" ] ]%string.
Theorem C63_alt_grows_refuted :
  text_of (fst (ex_wr (ex_load (ex_nested "q")))) = text_of (ex_nested "p-q")
  /\ text_of (fst (ex_wr (ex_load (ex_nested "p-q")))) = text_of (ex_nested "p-p-q")
  /\ text_of (ex_nested "p-q") <> text_of (ex_nested "p-p-q").
Proof. split; [|split]; vm_compute; [reflexivity|reflexivity|discriminate]. Qed.

(** The draft of an element with children is not written. Read back, the file may have another
    alternate in first place. *)
Definition ex_inner : node :=
  el "ldml" [] [ el "g" [("alt", "a"); ("draft", "suspect")] [ txt "y" [] "1" ];
                 el "g" [("alt", "b"); ("draft", "approved")] [ txt "y" [] "2" ] ]%string.
Definition first_alt (n : wnode) : option pystr :=
  match wkids n with c :: _ => dget streq (wattrs c) (lit "alt") | [] => None end.
Theorem C63_inner_draft_refuted :
  first_alt (ex_load ex_inner) = Some (lit "b")
  /\ first_alt (ex_load (fst (ex_wr (ex_load ex_inner)))) = Some (lit "a").
Proof. split; vm_compute; reflexivity. Qed.

(** * Without drafts the alternates are not written and nothing changes *)
Inductive without_alts : wnode -> node -> Prop :=
| NoAlts t a x b l k k' : Forall2 without_alts k k' -> without_alts (WNode t a x b l k) (Node t a x k').
Theorem C63_no_drafts : forall dd silid w topns root cnt nss r root',
  save dd silid w topns false root cnt nss = Ok (r, root') ->
  root' = root /\ exists out, without_alts root out /\ serialize w topns out cnt nss = Ok r.
Proof.
  intros dd silid w topns root cnt nss r root' H. unfold save in H.
  destruct (serialize w topns (M_WriteDrafts.plain root) cnt nss) as [r0|] eqn:E; [|discriminate]. cbn [bind] in H.
  injection H as -> ->. split; [reflexivity|]. exists (M_WriteDrafts.plain root'). split; [|exact E].
  clear. induction root' as [t a x b l k _ IHk] using wnode_ind'. cbn [M_WriteDrafts.plain]. constructor.
  apply Forall2_map_r, Forall2_same. exact IHk.
Qed.
Example C63_ex_no_drafts : exists r, save (lit "unconfirmed") ex_silid ex_writer true false (ex_load ex_file) 0 [] = Ok (r, ex_load ex_file).
Proof. eexists. vm_compute. reflexivity. Qed.
