(** C94: rewriting an ICU tailoring. *)
From Coq Require Import String.
From Verif Require Import Py PyFacts M_Collation M_Files T_Files M_IcuPretty.
Local Open Scope list_scope.

(** * Specification *)
(** a key ends in an asat, perhaps with white space behind *)
Definition asat_key (ws : N -> bool) (k : pystr) : Prop :=
  exists a sp, k = a ++ [0x103A%N] ++ sp /\ forall c, In c sp -> ws c = true.

(** * Proof *)
Section Proof.
  Variable ws : N -> bool.
  Hypothesis asat_black : ws 0x103A%N = false.
  Variable E : Type.
  Variable parse : pystr -> res (list (pystr * E)).
  Variable minimise : list pystr -> list (pystr * E) -> res (list (pystr * E)).
  Variable setkeys : list (pystr * E) -> res (list (pystr * E)).
  Variable as_icu : bool -> list (pystr * E) -> res pystr.
  Variable split_ws : pystr -> list pystr.
  Variable element : pystr -> nat -> N -> E.
  Variable fill : E -> E -> E.
  Notation icupretty := (icupretty ws E parse minimise setkeys as_icu split_ws element fill).
  Notation adddot := (adddot ws E element fill).

  Lemma lstrip_gap g s : (forall c, In c g -> ws c = true) -> lstrip ws (g ++ s) = lstrip ws s.
  Proof.
    induction g as [|c g IH]; intros H; [reflexivity|]. cbn [app lstrip]. rewrite (H c (or_introl eq_refl)). apply IH. intros x Hx. apply H. now right.
  Qed.
  Lemma lstrip_cut s : exists g, s = g ++ lstrip ws s /\ forall c, In c g -> ws c = true.
  Proof.
    induction s as [|c s (g & E0 & H)]; [exists []; split; [reflexivity|intros ? []]|]. cbn [lstrip]. destruct (ws c) eqn:W.
    - exists (c :: g). split; [cbn; now rewrite <- E0|]. intros x [<-|Hx]; auto.
    - exists []. split; [reflexivity|intros ? []].
  Qed.
  Lemma ends_spec k : ends_asat ws k = true <-> asat_key ws k.
  Proof.
    unfold ends_asat. rewrite endswith_spec. unfold asat_key, rstrip, asat. split.
    - intros (st & H). destruct (lstrip_cut (rev k)) as (g & Eg & Hg). exists st, (rev g).
      split; [|intros c Hc; apply Hg; now apply in_rev]. rewrite app_assoc, <- H, <- rev_app_distr, <- Eg. now rewrite rev_involutive.
    - intros (a & sp & -> & Hs). exists a. rewrite app_assoc, rev_app_distr, lstrip_gap by (intros c Hc; apply Hs; now apply in_rev).
      rewrite rev_app_distr. cbn [rev app lstrip]. rewrite asat_black. cbn [rev]. now rewrite rev_involutive.
  Qed.
  Lemma adddot_fails items : forall c n, (exists k v, In (k, v) items /\ asat_key ws k) -> adddot items c n = Raise TypeError.
  Proof.
    induction items as [|[k v] items IH]; intros c n (k' & v' & Hin & Hk); [destruct Hin|]. cbn [M_IcuPretty.adddot].
    destruct (ends_asat ws k) eqn:Ee; [reflexivity|]. destruct Hin as [Eq|Hin].
    - injection Eq as -> ->. apply ends_spec in Hk. congruence.
    - apply IH. now exists k', v'.
  Qed.
  Lemma adddot_nothing items : forall c n, (forall k v, In (k, v) items -> ~ asat_key ws k) -> adddot items c n = Ok (c, n).
  Proof.
    induction items as [|[k v] items IH]; intros c n H; [reflexivity|]. cbn [M_IcuPretty.adddot].
    destruct (ends_asat ws k) eqn:Ee; [exfalso; apply (H k v); [now left|now apply ends_spec]|]. apply IH. intros k' v' Hin. apply (H k' v'). now right.
  Qed.

  (** ** C94: --adddot fails for every tailoring it is meant for *)
  Theorem C94_dots_refuted : forall infile output keys files tailor c c',
    dget streq files infile = Some tailor -> parse tailor = Ok c -> setkeys c = Ok c' ->
    (exists k v, In (k, v) c' /\ asat_key ws k) ->
    icupretty infile output None keys true files = (files, Raise TypeError).
  Proof.
    intros infile output keys files tailor c c' H1 H2 H3 H4. unfold M_IcuPretty.icupretty. rewrite H1, H2. cbn [bind]. rewrite H3. cbn [bind].
    now rewrite (adddot_fails c' c' 0 H4).
  Qed.
  (** and changes nothing for any other *)
  Theorem C94_dots_nothing : forall infile output keys files tailor c c',
    dget streq files infile = Some tailor -> parse tailor = Ok c -> setkeys c = Ok c' ->
    (forall k v, In (k, v) c' -> ~ asat_key ws k) ->
    icupretty infile output None keys true files = icupretty infile output None keys false files.
  Proof.
    intros infile output keys files tailor c c' H1 H2 H3 H4. unfold M_IcuPretty.icupretty. rewrite H1, H2. cbn [bind]. rewrite H3. cbn [bind].
    now rewrite (adddot_nothing c' c' 0 H4).
  Qed.
  (** ** C94: the output is written as a whole or not at all, and no other file is changed *)
  Theorem C94_all_or_nothing : forall infile output alphabet keys dots files,
    (forall e, snd (icupretty infile output alphabet keys dots files) = Raise e -> fst (icupretty infile output alphabet keys dots files) = files) /\
    (forall f, output <> Some f -> dget streq (fst (icupretty infile output alphabet keys dots files)) f = dget streq files f).
  Proof.
    intros infile output alphabet keys dots files. unfold M_IcuPretty.icupretty. destruct (dget streq files infile) as [t|]; [|split; reflexivity].
    match goal with |- context [match ?x with Ok _ => _ | Raise _ => _ end] => destruct x as [text|e] end; [|split; reflexivity].
    destruct output as [[|o out]|]; try (split; reflexivity). cbn [fst snd]. split; [discriminate|]. intros f Hf.
    apply (dget_dset_other _ streq_spec). congruence.
  Qed.
  (** ** without an output file nothing is ever shown *)
  Theorem C94_screen_refuted : forall infile alphabet keys dots files output, output = None \/ output = Some [] ->
    exists e, icupretty infile output alphabet keys dots files = (files, Raise e).
  Proof.
    intros infile alphabet keys dots files output O. unfold M_IcuPretty.icupretty. destruct (dget streq files infile) as [t|]; [|eexists; reflexivity].
    match goal with |- context [match ?x with Ok _ => _ | Raise _ => _ end] => destruct x as [text|e] end; [|eexists; reflexivity].
    destruct O as [-> | ->]; eexists; reflexivity.
  Qed.
  (** what is written is the tailoring that was read, in the order of definition (C61) *)
  Theorem C94_written : forall infile o out keys files tailor c c' text,
    dget streq files infile = Some tailor -> parse tailor = Ok c -> setkeys c = Ok c' -> as_icu keys c' = Ok text ->
    dget streq (fst (icupretty infile (Some (o :: out)) None keys false files)) (o :: out) = Some text.
  Proof.
    intros infile o out keys files tailor c c' text H1 H2 H3 H4. unfold M_IcuPretty.icupretty. rewrite H1, H2. cbn [bind]. rewrite H3. cbn [bind].
    rewrite H4. cbn [fst]. apply (dget_dset_same _ streq_spec).
  Qed.
End Proof.

(** * The hypotheses are met: a tailoring is one key, written as it is *)
Definition ex_parse (s : pystr) : res (list (pystr * nat)) := Ok [(s, 1%nat)].
Definition ex_icu (keys : bool) (c : list (pystr * nat)) : res pystr := match c with (k, _) :: _ => Ok k | [] => Raise ValueError end.
Definition ex_pretty := icupretty (N.eqb 32) nat ex_parse (fun _ c => Ok c) Ok ex_icu (fun s => [s]) (fun _ n _ => n) (fun a _ => a).
Example C94_met : asat_key (N.eqb 32) [0x1000; 0x103A; 32]%N /\ ~ asat_key (N.eqb 32) (lit "ka") /\
  ex_pretty (lit "i") (Some (lit "o")) None false true [(lit "i", [0x1000; 0x103A; 32]%N); (lit "o", lit "old")] =
    ([(lit "i", [0x1000; 0x103A; 32]%N); (lit "o", lit "old")], Raise TypeError) /\
  ex_pretty (lit "i") (Some (lit "o")) None false true [(lit "i", lit "ka"); (lit "o", lit "old")] =
    ([(lit "i", lit "ka"); (lit "o", lit "ka")], Ok []).
Proof.
  split; [exists [0x1000%N], [32%N]; split; [reflexivity|intros c [<-|[]]; reflexivity]|].
  split; [rewrite <- ends_spec by reflexivity; vm_compute; discriminate|]. split; vm_compute; reflexivity.
Qed.
