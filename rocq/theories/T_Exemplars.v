(** C39: the collection of exemplars cuts the whole text into pieces. *)
From Coq Require Import String.
From Verif Require Import Py PyFacts M_UnicodeSets P_UnicodeSets M_Exemplars.
Local Open Scope list_scope.
Local Open Scope nat_scope.

Lemma ex_eqb_spec (a b : exemplar) : reflect (a = b) (ex_eqb a b).
Proof.
  unfold ex_eqb. destruct a as [a1 a2], b as [b1 b2]. cbn.
  destruct (streq_spec a1 b1) as [->|H]; cbn; [|constructor; congruence].
  destruct (streq_spec a2 b2) as [->|H]; constructor; congruence.
Qed.

(** A counter reads as a function of the exemplar. *)
Lemma cget_cadd d e n x : cget (cadd d e n) x = cget d x + (if ex_eqb x e then n else 0).
Proof.
  unfold cget, cadd. destruct (ex_eqb_spec x e) as [->|H].
  - rewrite (dget_dset_same _ ex_eqb_spec). reflexivity.
  - rewrite (dget_dset_other _ ex_eqb_spec) by congruence. lia.
Qed.

Section Spec.
  Variable u : ucd.
  Variables (preset : pystr -> bool) (maxlen : nat).

  (** A piece of the text: what it is, the characters of the text it stands for, and the
      exemplar it is counted as. *)
  Inductive kind := Given | Punctuation | Cluster | Skipped.
  Record piece := Piece { pk : kind; source : pystr; counted : option exemplar }.

  (** the capital as a small letter *)
  Definition folded (c : N) : N := if u_upper u c then u_tolower u c else c.
  (** what may follow a base within a cluster; a ZWNJ ends it *)
  Definition inner (c : N) : Prop := c = zwj \/ (c <> zwnj /\ u_mark u c = true).
  Definition cluster_tail (tr rest : pystr) : Prop :=
    (Forall inner tr /\ match rest with [] => True | c :: _ => ~ inner c /\ c <> zwnj end)
    \/ exists ms, tr = ms ++ [zwnj] /\ Forall inner ms.
  (** the nuktas among the characters that follow *)
  Definition nukta_at (c : N) : bool :=
    (negb (N.eqb c zwj) && negb (N.eqb c zwnj) && u_mark u c && isnukta u c)%bool.
  Definition nuktas (tr : pystr) : nat := length (filter nukta_at tr).
  (** how base and trailers are told apart *)
  Definition parts (c : N) (tr : pystr) : exemplar :=
    match nuktas tr with
    | O => ([folded c], tr)
    | n => (c :: firstn n tr, skipn n tr)
    end.

  (** The longest given exemplar the text begins with. *)
  Definition given_prefix (s : pystr) (k : nat) : Prop :=
    1 <= k <= maxlen /\ preset (firstn k s) = true
    /\ forall k', k < k' <= maxlen -> preset (firstn k' s) = false.
  Definition no_given_prefix (s : pystr) : Prop :=
    forall k, 1 <= k <= maxlen -> preset (firstn k s) = false.

  (** A text cut into pieces: by turns perhaps a given exemplar, and one character with what
      belongs to it. *)
  Inductive cut : pystr -> list piece -> Prop :=
  | cut_end : cut [] []
  | cut_given s k ps : s <> [] -> given_prefix s k -> cut1 (skipn k s) ps ->
      cut s (Piece Given (firstn k s) (Some (firstn k s, [])) :: ps)
  | cut_plain s ps : s <> [] -> no_given_prefix s -> cut1 s ps -> cut s ps
  with cut1 : pystr -> list piece -> Prop :=
  | cut1_end : cut1 [] []
  | cut1_punct c r ps : ispunct u c = true -> cut r ps ->
      cut1 (c :: r) (Piece Punctuation [c] (Some ([c], [])) :: ps)
  | cut1_skip c r ps : ispunct u c = false -> allowable u (folded c) = false -> cut r ps ->
      cut1 (c :: r) (Piece Skipped [c] None :: ps)
  | cut1_cluster c tr r ps : ispunct u c = false -> allowable u (folded c) = true ->
      cluster_tail tr r -> cut r ps ->
      cut1 (c :: tr ++ r) (Piece Cluster (c :: tr) (Some (parts c tr)) :: ps).

  Scheme cut_mut := Induction for cut Sort Prop
  with cut1_mut := Induction for cut1 Sort Prop.
  Combined Scheme cut_both from cut_mut, cut1_mut.

  Definition occurrences (ps : list piece) (e : exemplar) : nat :=
    length (filter (fun p => match counted p with Some x => ex_eqb e x | None => false end) ps).

  (** the forms of clusters that began with a capital, or with a small letter *)
  Definition cluster_of (f : N -> bool) (ps : list piece) (x : pystr) : Prop :=
    exists p e, In p ps /\ pk p = Cluster /\ counted p = Some e /\ ex_text e = x
      /\ match source p with c :: _ => f c = true | [] => False end.

  (** ** The pieces put together are the text. *)
  Lemma cut_concat_both :
    (forall s ps, cut s ps -> concat (map source ps) = s /\ Forall (fun p => source p <> []) ps)
    /\ (forall s ps, cut1 s ps -> concat (map source ps) = s /\ Forall (fun p => source p <> []) ps).
  Proof.
    apply (cut_both (fun s ps _ => concat (map source ps) = s /\ Forall (fun p => source p <> []) ps)
                    (fun s ps _ => concat (map source ps) = s /\ Forall (fun p => source p <> []) ps)).
    - split; [reflexivity|constructor].
    - intros s k ps Hs Hk _ [E F]. cbn. rewrite E, firstn_skipn. split; [reflexivity|].
      constructor; [|exact F]. cbn. destruct Hk as [[Hk _] _].
      destruct s; [congruence|]. destruct k; [lia|]. cbn. discriminate.
    - intros s ps Hs _ _ H. exact H.
    - split; [reflexivity|constructor].
    - intros c r ps _ _ [E F]. cbn. rewrite E. split; [reflexivity|]. constructor; [cbn; discriminate|exact F].
    - intros c r ps _ _ _ [E F]. cbn. rewrite E. split; [reflexivity|]. constructor; [cbn; discriminate|exact F].
    - intros c tr r ps _ _ _ _ [E F]. cbn. rewrite E. split; [reflexivity|]. constructor; [cbn; discriminate|exact F].
  Qed.

  (** ** What the code does *)
  Lemma find_multi_spec k s : 
    match find_multi preset k s with
    | Some j => 1 <= j <= k /\ preset (firstn j s) = true /\ forall k', j < k' <= k -> preset (firstn k' s) = false
    | None => forall j, 1 <= j <= k -> preset (firstn j s) = false
    end.
  Proof.
    induction k as [|k IH]; cbn [find_multi].
    - intros j Hj. lia.
    - destruct (preset (firstn (S k) s)) eqn:E.
      + repeat split; try lia; auto.
      + destruct (find_multi preset k s) as [j|].
        * destruct IH as (A & B & C). repeat split; try lia; auto.
          intros k' Hk. destruct (Nat.eq_dec k' (S k)) as [->|]; [exact E|]. apply C. lia.
        * intros j Hj. destruct (Nat.eq_dec j (S k)) as [->|]; [exact E|]. apply IH. lia.
  Qed.

  Lemma cluster_end_spec rest : forall len blen,
    exists tr r, rest = tr ++ r /\ cluster_tail tr r
      /\ cluster_end u rest len blen = (len + length tr, blen + nuktas tr).
  Proof.
    induction rest as [|t rest IH]; intros len blen; cbn [cluster_end].
    - exists [], []. split; [reflexivity|]. split; [left; split; [constructor|exact I]|]. cbn. f_equal; lia.
    - destruct (N.eqb_spec t zwj) as [->|Hz].
      { destruct (IH (S len) blen) as (tr & r & E & T & C). exists (zwj :: tr), r.
        split; [cbn; now rewrite E|]. split.
        - destruct T as [[F G]|(ms & Em & F)].
          + left. split; [constructor; [now left|exact F]|exact G].
          + right. exists (zwj :: ms). split; [cbn; now rewrite Em|]. constructor; [now left|exact F].
        - rewrite C. unfold nuktas. cbn [filter]. unfold nukta_at at 2. rewrite N.eqb_refl. cbn [negb andb length].
          f_equal. lia. }
      destruct (N.eqb_spec t zwnj) as [->|Hn].
      { exists [zwnj], rest. split; [reflexivity|]. split; [right; exists []; split; [reflexivity|constructor]|].
        unfold nuktas. cbn [filter]. unfold nukta_at. rewrite N.eqb_refl.
        replace (N.eqb zwnj zwj) with false by reflexivity. cbn [negb andb length]. f_equal; lia. }
      destruct (u_mark u t) eqn:Em.
      { destruct (IH (S len) (if isnukta u t then S blen else blen)) as (tr & r & E & T & C). exists (t :: tr), r.
        split; [cbn; now rewrite E|]. split.
        - destruct T as [[F G]|(ms & E2 & F)].
          + left. split; [constructor; [now right|exact F]|exact G].
          + right. exists (t :: ms). split; [cbn; now rewrite E2|]. constructor; [now right|exact F].
        - rewrite C. unfold nuktas. cbn [filter]. unfold nukta_at at 2.
          apply N.eqb_neq in Hz, Hn. rewrite Hz, Hn, Em. cbn [negb andb].
          destruct (isnukta u t); cbn [length]; f_equal; lia. }
      exists [], (t :: rest). split; [reflexivity|]. split.
      + left. split; [constructor|]. split; [|exact Hn]. intros [H|[_ H]]; congruence.
      + cbn. f_equal; lia.
  Qed.

  Lemma nuktas_le tr : nuktas tr <= length tr.
  Proof. unfold nuktas. induction tr as [|c tr IH]; cbn; [lia|]. destruct (nukta_at c); cbn; lia. Qed.

  (** the state grows by the pieces *)
  Definition grows (st st' : pstate) (ps : list piece) : Prop :=
    (forall e, cget (p_clusters st') e = cget (p_clusters st) e + occurrences ps e)
    /\ (forall e, In e (dkeys (p_clusters st')) <-> In e (dkeys (p_clusters st)) \/ exists p, In p ps /\ counted p = Some e)
    /\ (forall x, In x (p_upper st') <-> In x (p_upper st) \/ cluster_of (u_upper u) ps x)
    /\ ((forall c, u_lower u c = true -> u_upper u c = false) ->
        forall x, In x (p_lower st') <-> In x (p_lower st) \/ cluster_of (u_lower u) ps x).

  Lemma in_cadd d e n x : In x (dkeys (cadd d e n)) <-> In x (dkeys d) \/ x = e.
  Proof.
    unfold cadd. rewrite <- !(dget_Some_iff _ ex_eqb_spec). destruct (ex_eqb_spec x e) as [->|H].
    - rewrite (dget_dset_same _ ex_eqb_spec). split; [auto|]. intros _. eexists; reflexivity.
    - rewrite (dget_dset_other _ ex_eqb_spec) by congruence. intuition congruence.
  Qed.

  Lemma grows_nil st : grows st st [].
  Proof.
    repeat split.
    - intros e. cbn. lia.
    - intros H; now left.
    - intros [H|(p & [] & _)]; exact H.
    - intros H; now left.
    - intros [H|(p & e & [] & _)]; exact H.
    - intros H'; now left.
    - intros [H'|(p & e & [] & _)]; exact H'.
  Qed.

  Lemma grows_app st1 st2 st3 ps1 ps2 : grows st1 st2 ps1 -> grows st2 st3 ps2 -> grows st1 st3 (ps1 ++ ps2).
  Proof.
    intros (A1 & B1 & C1 & D1) (A2 & B2 & C2 & D2).
    assert (Hc : forall f x, cluster_of f (ps1 ++ ps2) x <-> cluster_of f ps1 x \/ cluster_of f ps2 x).
    { intros f x. unfold cluster_of. split.
      - intros (p & e & Hin & R). apply in_app_iff in Hin. destruct Hin; [left|right]; exists p, e; auto.
      - intros [(p & e & Hin & R)|(p & e & Hin & R)]; exists p, e; (split; [apply in_app_iff; auto|exact R]). }
    split; [|split; [|split]].
    - intros e. rewrite A2, A1. unfold occurrences. rewrite filter_app, app_length. lia.
    - intros e. rewrite B2, B1. split.
      + intros [[H|(p & Hp & E)]|(p & Hp & E)]; [now left|right; exists p; rewrite in_app_iff; auto|right; exists p; rewrite in_app_iff; auto].
      + intros [H|(p & Hp & E)]; [auto|]. apply in_app_iff in Hp. destruct Hp as [Hp|Hp]; [left; right|right]; exists p; auto.
    - intros x. rewrite C2, C1, Hc. tauto.
    - intros Hd x. rewrite (D2 Hd), (D1 Hd), Hc. tauto.
  Qed.

  (** counting one exemplar that is no cluster *)
  Lemma grows_count st k src e : k <> Cluster ->
    grows st (mkP (cadd (p_clusters st) e 1) (p_upper st) (p_lower st)) [Piece k src (Some e)].
  Proof.
    intros Hk.
    assert (Hc : forall f x, ~ cluster_of f [Piece k src (Some e)] x).
    { intros f x (p & e' & [<-|[]] & K & _). cbn in K. congruence. }
    split; [|split; [|split]]; cbn [p_clusters p_upper p_lower].
    - intros x. rewrite cget_cadd. unfold occurrences. cbn. destruct (ex_eqb x e); cbn; lia.
    - intros x. rewrite in_cadd. split.
      + intros [H| ->]; [now left|right; eexists; split; [left; reflexivity|reflexivity]].
      + intros [H|(p & [<-|[]] & E)]; [now left|right; cbn in E; congruence].
    - intros x. specialize (Hc (u_upper u) x). tauto.
    - intros _ x. specialize (Hc (u_lower u) x). tauto.
  Qed.

  Lemma grows_skip st c : grows st st [Piece Skipped [c] None].
  Proof.
    assert (Hc : forall f x, ~ cluster_of f [Piece Skipped [c] None] x).
    { intros f x (p & e' & [<-|[]] & K & _). cbn in K. congruence. }
    split; [|split; [|split]].
    - intros e. cbn. lia.
    - intros e. split; [now left|]. intros [H|(p & [<-|[]] & E)]; [exact H|cbn in E; discriminate].
    - intros x. specialize (Hc (u_upper u) x). tauto.
    - intros _ x. specialize (Hc (u_lower u) x). tauto.
  Qed.

  Lemma in_app1 (x y : pystr) l : In x (l ++ [y]) <-> In x l \/ x = y.
  Proof. rewrite in_app_iff. cbn. intuition congruence. Qed.

  Lemma single_spec s st s' st' : single u s st = (s', st') ->
    (s = [] /\ s' = [] /\ st' = st)
    \/ (length s' < length s /\ exists p, grows st st' [p]
        /\ forall ps, cut s' ps -> cut1 s (p :: ps)).
  Proof.
    destruct s as [|c rest]; cbn [single].
    { intros E. injection E as <- <-. left. auto. }
    destruct (ispunct u c) eqn:Ep.
    { intros E. injection E as <- <-. right. split; [cbn; lia|].
      exists (Piece Punctuation [c] (Some ([c], []))). split; [apply grows_count; discriminate|].
      intros ps Hps. now constructor. }
    change (if u_upper u c then u_tolower u c else c) with (folded c).
    destruct (allowable u (folded c)) eqn:Ea; cbn [negb].
    2:{ intros E. injection E as <- <-. right. split; [cbn; lia|].
        exists (Piece Skipped [c] None). split; [apply grows_skip|]. intros ps Hps. now constructor. }
    destruct (cluster_end_spec rest 1 1) as (tr & r & E & T & Ece). rewrite Ece.
    assert (Ee : (if 1 <? 1 + nuktas tr then firstn (1 + nuktas tr) (c :: rest) else [folded c],
                  slice (c :: rest) (1 + nuktas tr) (1 + length tr)) = parts c tr).
    { unfold parts, slice. rewrite E. pose proof (nuktas_le tr) as Hle.
      assert (Hsl : firstn (1 + length tr - (1 + nuktas tr)) (skipn (1 + nuktas tr) (c :: tr ++ r)) = skipn (nuktas tr) tr).
      { cbn [Nat.add skipn]. replace (S (length tr) - S (nuktas tr)) with (length (skipn (nuktas tr) tr)) by (rewrite skipn_length; lia).
        rewrite skipn_app. replace (nuktas tr - length tr) with 0 by lia. cbn [skipn].
        rewrite firstn_app, Nat.sub_diag. cbn [firstn]. rewrite app_nil_r. apply firstn_all. }
      rewrite Hsl. destruct (nuktas tr) as [|n] eqn:En.
      - reflexivity.
      - cbn [Nat.add]. replace (1 <? S (S n)) with true by reflexivity.
        cbn [firstn]. f_equal. f_equal. change (match tr ++ r with [] => [] | a :: l => a :: firstn n l end) with (firstn (S n) (tr ++ r)).
        rewrite firstn_app. replace (S n - length tr) with 0 by lia. cbn [firstn]. now rewrite app_nil_r. }
    set (b := if 1 <? 1 + nuktas tr then _ else _) in *.
    set (t := slice (c :: rest) _ _) in *.
    intros H. injection H as <- <-. right.
    assert (Hs' : match rest with [] => [] | _ :: l => skipn (length tr) rest end = r \/ True) by auto.
    assert (Hsk : skipn (1 + length tr) (c :: rest) = r).
    { cbn [Nat.add skipn]. rewrite E, skipn_app, Nat.sub_diag, skipn_all. reflexivity. }
    change (skipn (length tr) rest) with (skipn (1 + length tr) (c :: rest)). rewrite Hsk.
    split; [rewrite E; cbn; rewrite app_length; lia|].
    exists (Piece Cluster (c :: tr) (Some (parts c tr))). split.
    2:{ intros ps Hps. rewrite E. now constructor. }
    rewrite Ee. set (x := ex_text (parts c tr)) in *.
    assert (Hco : forall f y, cluster_of f [Piece Cluster (c :: tr) (Some (parts c tr))] y <-> f c = true /\ y = x).
    { intros f y. split.
      - intros (p & e & [<-|[]] & _ & Ec & Et & Hf). cbn in *. split; [exact Hf|]. unfold x. congruence.
      - intros [Hf ->]. eexists _, (parts c tr). split; [left; reflexivity|]. cbn. auto. }
    split; [|split; [|split]]; cbn [p_clusters p_upper p_lower].
    - intros e. rewrite cget_cadd. unfold occurrences. cbn. destruct (ex_eqb e (parts c tr)); cbn; lia.
    - intros e. rewrite in_cadd. split.
      + intros [H| ->]; [now left|right; eexists; split; [left; reflexivity|reflexivity]].
      + intros [H|(p & [<-|[]] & E2)]; [now left|right; cbn in E2; congruence].
    - intros y. rewrite Hco. destruct (u_upper u c) eqn:Eu; cbn [andb].
      + destruct (smem x (p_upper st)) eqn:Em; cbn [negb].
        * apply smem_spec in Em. intuition congruence.
        * rewrite in_app1. intuition congruence.
      + intuition congruence.
    - intros Hd y. rewrite Hco. destruct (u_lower u c) eqn:El; cbn [andb].
      + rewrite (Hd c El). cbn [andb negb]. destruct (smem x (p_lower st)) eqn:Em; cbn [negb].
        * apply smem_spec in Em. intuition congruence.
        * rewrite in_app1. intuition congruence.
      + rewrite Bool.andb_false_r. cbn [andb]. intuition congruence.
  Qed.

  Lemma process_spec fuel : forall s st, length s <= fuel ->
    exists st' ps, process_loop u preset maxlen fuel s st = Ok st' /\ cut s ps /\ grows st st' ps.
  Proof.
    induction fuel as [|fuel IH]; intros s st Hf.
    - destruct s; [|cbn in Hf; lia]. exists st, []. split; [reflexivity|]. split; [constructor|apply grows_nil].
    - destruct s as [|c0 s0] eqn:Es. { exists st, []. split; [reflexivity|]. split; [constructor|apply grows_nil]. }
      rewrite <- Es in *. assert (Hne : s <> []) by (rewrite Es; discriminate).
      replace (process_loop u preset maxlen (S fuel) s st) with
        (let '(s1, st1) :=
              match find_multi preset maxlen s with
              | Some k => (skipn k s, mkP (cadd (p_clusters st) (firstn k s, []) 1) (p_upper st) (p_lower st))
              | None => (s, st)
              end in
            let '(s2, st2) := single u s1 st1 in
            process_loop u preset maxlen fuel s2 st2) by (rewrite Es; reflexivity).
      clear Es c0 s0.
      assert (HX : exists s1 st1 ps1,
        match find_multi preset maxlen s with
              | Some k => (skipn k s, mkP (cadd (p_clusters st) (firstn k s, []) 1) (p_upper st) (p_lower st))
              | None => (s, st)
              end = (s1, st1) /\ grows st st1 ps1 /\ (forall ps, cut1 s1 ps -> cut s (ps1 ++ ps))
        /\ length s1 <= length s /\ (s1 = [] -> True) /\ (length s1 < length s \/ s1 = s)).
      { pose proof (find_multi_spec maxlen s) as F. destruct (find_multi preset maxlen s) as [k|].
        - eexists _, _, [Piece Given (firstn k s) (Some (firstn k s, []))]. split; [reflexivity|].
          split; [apply grows_count; discriminate|]. split; [intros ps Hps; now apply cut_given|].
          destruct F as [Fk _]. rewrite skipn_length. destruct s; [congruence|]. cbn [length] in *.
          repeat split; try lia.
        - eexists _, _, []. split; [reflexivity|]. split; [apply grows_nil|]. split; [intros ps Hps; now apply cut_plain|].
          repeat split; auto. }
      destruct HX as (s1 & st1 & ps1 & -> & G1 & C1 & L1 & _ & L1').
      destruct (single u s1 st1) as [s2 st2] eqn:E2.
      pose proof (single_spec _ _ _ _ E2) as [(-> & -> & ->)|(L2 & p & G2 & C2)].
      + exists st1, ps1. split; [now destruct fuel|]. split; [|exact G1].
        rewrite <- (app_nil_r ps1). apply C1. constructor.
      + destruct (IH s2 st2) as (st' & ps & E3 & C3 & G3); [lia|].
        exists st', (ps1 ++ p :: ps). split; [exact E3|]. split; [apply C1, C2, C3|].
        apply (grows_app _ st1); [exact G1|]. apply (grows_app st1 st2 st' [p] ps); assumption.
  Qed.
End Spec.

(** ** C39 *)

(** [process] ends on every text, and what it counts are the pieces of one cut of the text. *)
Theorem C39_segments : forall u preset maxlen text st fuel, length text <= fuel ->
  exists st' ps,
    process_loop u preset maxlen fuel text st = Ok st'
    /\ cut u preset maxlen text ps
    /\ concat (map source ps) = text
    /\ Forall (fun p => source p <> []) ps
    /\ (forall e, cget (p_clusters st') e = cget (p_clusters st) e + occurrences ps e)
    /\ (forall e, In e (dkeys (p_clusters st')) <->
          In e (dkeys (p_clusters st)) \/ exists p, In p ps /\ counted p = Some e).
Proof.
  intros u preset maxlen text st fuel Hf.
  destruct (process_spec u preset maxlen fuel text st Hf) as (st' & ps & E & C & G).
  exists st', ps. split; [exact E|]. split; [exact C|].
  destruct (proj1 (cut_concat_both u preset maxlen) _ _ C) as [A B]. split; [exact A|]. split; [exact B|].
  destruct G as (G1 & G2 & _). split; assumption.
Qed.

(** The characters by themselves: which are punctuation, and which may begin an exemplar. *)
Theorem C39_characters : forall u c,
  (ispunct u c = true <-> u_cpunct u c = true /\ u_wordbreak u c = false)
  /\ (allowable u c = true <->
        u_number u c = true
        \/ (u_upper u c = false /\ (u_script u c = true \/ u_wordbreak u c = true \/ u_alpha u c = true))).
Proof.
  intros u c. unfold ispunct, allowable.
  destruct (u_wordbreak u c), (u_cpunct u c), (u_number u c), (u_upper u c), (u_script u c), (u_alpha u c); intuition congruence.
Qed.

(** What is counted for a piece is its text: in a cluster without a nukta a capital becomes a
    small letter; nothing else is changed. Only characters that may not be in an exemplar are
    left out. *)
Theorem C39_faithful : forall u preset maxlen text ps, cut u preset maxlen text ps ->
  Forall (fun p => match counted p with
    | None => exists c, source p = [c] /\ ispunct u c = false /\ allowable u (folded u c) = false
    | Some e => fst e <> [] /\
        (ex_text e = source p
         \/ exists c tr, source p = c :: tr /\ nuktas u tr = 0 /\ u_upper u c = true
            /\ e = ([u_tolower u c], tr))
    end) ps.
Proof.
  intros u preset maxlen.
  assert (HX : (forall s ps, cut u preset maxlen s ps -> Forall (fun p => match counted p with
    | None => exists c, source p = [c] /\ ispunct u c = false /\ allowable u (folded u c) = false
    | Some e => fst e <> [] /\ (ex_text e = source p
         \/ exists c tr, source p = c :: tr /\ nuktas u tr = 0 /\ u_upper u c = true
            /\ e = ([u_tolower u c], tr))
    end) ps) /\ (forall s ps, cut1 u preset maxlen s ps -> Forall (fun p => match counted p with
    | None => exists c, source p = [c] /\ ispunct u c = false /\ allowable u (folded u c) = false
    | Some e => fst e <> [] /\ (ex_text e = source p
         \/ exists c tr, source p = c :: tr /\ nuktas u tr = 0 /\ u_upper u c = true
            /\ e = ([u_tolower u c], tr))
    end) ps)).
  2:{ exact (proj1 HX). }
  apply (cut_both u preset maxlen (fun s ps _ => Forall _ ps) (fun s ps _ => Forall _ ps)).
  - constructor.
  - intros s k ps Hs Hk _ F. constructor; [|exact F]. cbn. split.
    + destruct Hk as [[Hk _] _]. destruct s; [congruence|]. destruct k; [lia|]. cbn. discriminate.
    + left. unfold ex_text. cbn. apply app_nil_r.
  - intros s ps _ _ _ F. exact F.
  - constructor.
  - intros c r ps _ _ F. constructor; [|exact F]. cbn. split; [discriminate|now left].
  - intros c r ps Hp Ha _ F. constructor; [|exact F]. cbn. exists c. auto.
  - intros c tr r ps _ _ _ _ F. constructor; [|exact F]. cbn. unfold parts.
    destruct (nuktas u tr) as [|n] eqn:En.
    + split; [cbn; discriminate|]. unfold folded. destruct (u_upper u c) eqn:Eu.
      * right. exists c, tr. auto.
      * left. reflexivity.
    + split; [cbn; discriminate|]. left. unfold ex_text. cbn [fst snd].
      change ((c :: firstn (S n) tr) ++ skipn (S n) tr) with (c :: (firstn (S n) tr ++ skipn (S n) tr)).
      now rewrite firstn_skipn.
Qed.

(** The lists of forms seen with a capital and with a small letter. *)
Theorem C39_case : forall u preset maxlen text st fuel, length text <= fuel ->
  (forall c, u_lower u c = true -> u_upper u c = false) ->
  exists st' ps,
    process_loop u preset maxlen fuel text st = Ok st' /\ cut u preset maxlen text ps
    /\ (forall x, In x (p_upper st') <-> In x (p_upper st) \/ cluster_of (u_upper u) ps x)
    /\ (forall x, In x (p_lower st') <-> In x (p_lower st) \/ cluster_of (u_lower u) ps x).
Proof.
  intros u preset maxlen text st fuel Hf Hd.
  destruct (process_spec u preset maxlen fuel text st Hf) as (st' & ps & E & C & G1 & G2 & G3 & G4).
  exists st', ps. split; [exact E|]. split; [exact C|]. split; [exact G3|]. exact (G4 Hd).
Qed.

(** Each character is counted once under its script. *)
Theorem C39_scripts : forall code text d k,
  match dget N.eqb (count_scripts code text d) k with Some n => n | None => 0 end
  = match dget N.eqb d k with Some n => n | None => 0 end + length (filter (fun c => N.eqb (code c) k) text).
Proof.
  intros code text. unfold count_scripts. induction text as [|c text IH]; intros d k; cbn [fold_left filter length].
  - lia.
  - rewrite IH. destruct (N.eqb_spec (code c) k) as [->|H].
    + rewrite (dget_dset_same _ N.eqb_spec). cbn [length]. lia.
    + rewrite (dget_dset_other _ N.eqb_spec) by congruence. lia.
Qed.

(** *** An example, and what one might expect but does not hold *)

(** A small alphabet: letters a-z and A-Z, acute (769), a dot below that counts as a nukta
    (2364), full stop, space. *)
Definition u_small : ucd := mkUCD
  (fun c => N.eqb c 769 || N.eqb c 2364)%bool
  (fun c => if N.eqb c 769 then 230%N else if N.eqb c 2364 then 7%N else 0%N)
  (fun c => N.leb 48 c && N.leb c 57)%bool
  (fun c => (N.leb 97 c && N.leb c 122) || (N.leb 65 c && N.leb c 90))%bool
  (fun _ => false)
  (fun c => N.eqb c 46)
  (fun c => N.leb 65 c && N.leb c 90)%bool
  (fun c => N.leb 97 c && N.leb c 122)%bool
  (fun c => (N.leb 97 c && N.leb c 122) || (N.leb 65 c && N.leb c 90))%bool
  (fun c => N.eqb c zwj || N.eqb c zwnj)%bool
  (fun c => c + 32)%N.
Definition st0 : pstate := mkP [] [] [].
Definition none_given (_ : pystr) : bool := false.
Definition given_list (l : list pystr) (x : pystr) : bool := smem x l.

(** "A", acute, "b", ".", " ", "b" *)
Example C39_ex :
  match process_loop u_small none_given 0 6 [65; 769; 98; 46; 32; 98]%N st0 with
  | Ok st' => p_clusters st' = [(([97%N], [769%N]), 1); (([98%N], []), 2); (([46%N], []), 1)]
      /\ p_upper st' = [[97; 769]%N] /\ p_lower st' = [[98%N]]
  | Raise _ => False
  end.
Proof. now vm_compute. Qed.

(** One would expect a digraph that is given beforehand to be counted wherever it stands; but
    after one such the next is not looked for: of "chch" only the first is counted. *)
Theorem C39_given_refuted :
  match process_loop u_small (given_list [lit "ch"]) 2 4 (lit "chch") st0 with
  | Ok st' => cget (p_clusters st') (lit "ch", []) = 1
      /\ cget (p_clusters st') (lit "c", []) = 1 /\ cget (p_clusters st') (lit "h", []) = 1
  | Raise _ => False
  end.
Proof. now vm_compute. Qed.

(** Nor is a mark kept with its base when the base alone is a given exemplar: the mark is
    skipped. *)
Theorem C39_given_mark_refuted :
  match process_loop u_small (given_list [lit "a"]) 1 2 [97; 769]%N st0 with
  | Ok st' => p_clusters st' = [((lit "a", []), 1)]
  | Raise _ => False
  end.
Proof. now vm_compute. Qed.

(** A capital followed by a nukta stays a capital. *)
Theorem C39_capital_refuted :
  match process_loop u_small none_given 0 2 [65; 2364]%N st0 with
  | Ok st' => p_clusters st' = [(([65; 2364]%N, []), 1)]
  | Raise _ => False
  end.
Proof. now vm_compute. Qed.

(** When another mark comes before the nukta, it is that mark which goes with the base. *)
Theorem C39_nukta_refuted :
  match process_loop u_small none_given 0 3 [97; 769; 2364]%N st0 with
  | Ok st' => p_clusters st' = [(([97; 769], [2364])%N, 1)]
  | Raise _ => False
  end.
Proof. now vm_compute. Qed.
