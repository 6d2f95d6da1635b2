(** Proofs about the escapes of UnicodeSets.py (C97). *)
From Verif Require Import Py PyFacts M_UnicodeSets P_UnicodeSets.
Open Scope N_scope.

(** * Tokens: the flat view of a text *)
Inductive tok := TRaw (c : N) | TBack (c : N) | THex (t : pystr) (v : N) | TUB (h : pystr).
Definition ttext (t : tok) : pystr :=
  match t with
  | TRaw c => [c]
  | TBack c => [92; c]
  | THex t _ => t
  | TUB h => 92 :: 117 :: 123 :: h ++ [125]
  end.
Definition enc1 (v : N) : tok := if inchars v us_syntax then TBack v else TRaw v.
Definition s1 (t : tok) : tok := match t with THex _ v => enc1 v | _ => t end.
Definition s2 (t : tok) : list tok :=
  match t with TUB h => [TRaw 123; enc1 (hexnum h); TRaw 125] | _ => [t] end.
Lemma enc1_text v : ttext (enc1 v) = escapechar v.
Proof. unfold enc1, escapechar. destruct (inchars v us_syntax); reflexivity. Qed.

Definition uUx (c : N) : Prop := c = 117 \/ c = 85 \/ c = 120.
Definition tok_ok (t : tok) : Prop :=
  match t with
  | TRaw c => c <> 92
  | TBack c => ~ uUx c
  | THex t v => t <> [] /\ v < 1114112 /\ hd 0 t = 92 /\ forall r, hexesc_at (t ++ r) = Some (length t, v)
  | TUB h => h <> [] /\ forallb is_hex h = true /\ hexnum h < 1114112
  end.
Definition back92 (t : tok) : bool := match t with TBack c => N.eqb c 92 | THex _ v => N.eqb v 92 | _ => false end.
Definition uish (t : tok) : Prop := match t with TRaw c => uUx c | THex _ v => uUx v | _ => False end.
Fixpoint tsep (prev : bool) (l : list tok) : Prop :=
  match l with
  | [] => True
  | t :: l' => (prev = true -> ~ uish t) /\ tsep (back92 t) l'
  end.

Lemma resub_no92 at_ p t :
  (forall c r, c <> 92 -> at_ (c :: r) = None) -> (forall c, In c p -> c <> 92) ->
  resub at_ 0 (p ++ t) = do b <- resub at_ 0 t; Ok (p ++ b).
Proof.
  intros Ha. induction p as [|c p IH]; intros Hp.
  - cbn. destruct (resub at_ 0 t); reflexivity.
  - rewrite <- app_comm_cons. rewrite resub_none by (apply Ha, Hp; now left).
    rewrite IH by (intros x Hx; apply Hp; now right). rewrite bind_assoc. reflexivity.
Qed.
Lemma hexat_no92 c r : c <> 92 -> hexat (c :: r) = None.
Proof. intros H. now apply hexat_none, hexesc_at_no92. Qed.
Lemma gat_no92 c r : c <> 92 -> gat (c :: r) = None.
Proof. intros H. unfold gat. rewrite hexgre_at_none; [reflexivity|]. intros t E. congruence. Qed.
Lemma hex_no92 h c : forallb is_hex h = true -> In c h -> c <> 92.
Proof.
  intros H Hc. rewrite forallb_forall in H. apply H, is_hex_cases in Hc. lia.
Qed.

(** what follows a backslash that stands for itself *)
Lemma head_of t l : tok_ok t -> ~ uish t -> exists c r, ttext t ++ concat (map ttext l) = c :: r /\ ~ uUx c.
Proof.
  intros Ho Hu. destruct t as [c|c|t v|h]; cbn [ttext] in *.
  - exists c. eexists. split; [reflexivity|exact Hu].
  - exists 92. eexists. split; [reflexivity|]. unfold uUx. lia.
  - destruct Ho as (Hne & _ & Hh & _). destruct t as [|x t]; [congruence|]. cbn in Hh. subst x.
    exists 92. eexists. split; [reflexivity|]. unfold uUx. lia.
  - exists 92. eexists. split; [reflexivity|]. unfold uUx. lia.
Qed.
Lemma hexesc_at_92' s : (s = [] \/ exists c r, s = c :: r /\ ~ uUx c) -> hexesc_at (92 :: s) = None.
Proof.
  intros [->|(c & r & -> & Hc)]; [reflexivity|]. unfold uUx in Hc. apply hexesc_at_92; tauto.
Qed.
Lemma tail_head l : Forall tok_ok l -> tsep true l ->
  concat (map ttext l) = [] \/ exists c r, concat (map ttext l) = c :: r /\ ~ uUx c.
Proof.
  intros Ho Hs. destruct l as [|t l]; [now left|right].
  inversion Ho; subst. destruct Hs as [Hs _]. cbn [map concat]. apply head_of; auto.
Qed.

Lemma hexsub_toks l : forall prev, Forall tok_ok l -> tsep prev l ->
  resub hexat 0 (concat (map ttext l)) = Ok (concat (map ttext (map s1 l))).
Proof.
  induction l as [|t l IH]; intros prev Ho Hs; [reflexivity|].
  pose proof (Forall_inv Ho) as Ht. pose proof (Forall_inv_tail Ho) as Hl.
  destruct Hs as [Hp Hs]. pose proof (IH _ Hl Hs) as E.
  cbn [map concat]. destruct t as [c|c|x v|h].
  - cbn [ttext s1]. rewrite resub_no92; [|apply hexat_no92|intros y [->|[]]; exact Ht].
    rewrite E. reflexivity.
  - cbn [ttext s1 app]. cbn in Ht.
    rewrite resub_none by (apply hexat_none, hexesc_at_92; unfold uUx in Ht; tauto).
    rewrite resub_none; [rewrite E; reflexivity|]. apply hexat_none.
    destruct (N.eq_dec c 92) as [->|Hc]; [|now apply hexesc_at_no92].
    apply hexesc_at_92'. apply tail_head; auto.
  - cbn [ttext s1]. destruct Ht as (Hne & Hv & _ & Hx).
    rewrite (resub_hit hexat x _ (escapechar v)); [|exact Hne|].
    + rewrite E. cbn [bind]. now rewrite enc1_text.
    + unfold hexat. rewrite Hx. unfold pychr. rewrite (proj2 (N.ltb_lt _ _)) by exact Hv. reflexivity.
  - cbn [ttext s1]. destruct Ht as (_ & Hh & _).
    rewrite <- !app_comm_cons.
    rewrite resub_none by (apply hexat_none; rewrite hexesc_at_u by (intros t' F; discriminate); reflexivity).
    rewrite !resub_none by (apply hexat_no92; lia).
    rewrite resub_no92; [|apply hexat_no92|].
    + rewrite E. reflexivity.
    + intros y Hy. apply in_app_or in Hy as [Hy|[<-|[]]]; [now apply (hex_no92 h)|lia].
Qed.

(** ** the braced form *)
Definition nohex (t : tok) : Prop := match t with THex _ _ => False | _ => True end.
Lemma hex_run_app h r : forallb is_hex h = true -> hex_run (h ++ 125 :: r) = h.
Proof.
  induction h as [|c h IH]; intros H; [reflexivity|].
  cbn in H. apply andb_prop in H as [Hc Hh]. cbn [app hex_run]. rewrite Hc, IH by exact Hh. reflexivity.
Qed.
Lemma braced_hex_app h r : h <> [] -> forallb is_hex h = true -> braced_hex (h ++ 125 :: r) = Some h.
Proof.
  intros Hne Hh. unfold braced_hex. rewrite hex_run_app by exact Hh.
  destruct h as [|c h]; [congruence|]. rewrite skipn_app, skipn_all, Nat.sub_diag. reflexivity.
Qed.
Lemma gresub_toks l : forall prev, Forall tok_ok l -> Forall nohex l -> tsep prev l ->
  resub gat 0 (concat (map ttext l)) = Ok (concat (map ttext (flat_map s2 l))).
Proof.
  induction l as [|t l IH]; intros prev Ho Hn Hs; [reflexivity|].
  pose proof (Forall_inv Ho) as Ht. pose proof (Forall_inv_tail Ho) as Hl.
  pose proof (Forall_inv Hn) as Hnt. pose proof (Forall_inv_tail Hn) as Hnl.
  destruct Hs as [Hp Hs]. pose proof (IH _ Hl Hnl Hs) as E.
  cbn [map concat flat_map]. rewrite map_app, concat_app. destruct t as [c|c|x v|h]; [| |contradiction|].
  - cbn [ttext s2 map concat app]. rewrite resub_none by (apply gat_no92; exact Ht).
    rewrite E. reflexivity.
  - cbn [ttext s2 map concat app]. cbn in Ht.
    rewrite resub_none.
    2:{ unfold gat. rewrite hexgre_at_none; [reflexivity|]. intros t F. injection F as F _. unfold uUx in Ht. lia. }
    rewrite resub_none; [rewrite E; reflexivity|].
    destruct (N.eq_dec c 92) as [->|Hc]; [|now apply gat_no92].
    destruct (tail_head l Hl) as [->|(y & r & -> & Hy)]; [exact Hs|reflexivity|].
    unfold gat. rewrite hexgre_at_none; [reflexivity|]. intros t F. injection F as F _. unfold uUx in Hy. lia.
  - cbn [s2 map concat]. destruct Ht as (Hne & Hh & Hv).
    rewrite (resub_hit gat (ttext (TUB h)) _ (123 :: escapechar (hexnum h) ++ [125])).
    + rewrite E. cbn [bind]. rewrite enc1_text. cbn [ttext]. cbn [app]. rewrite <- !app_assoc. reflexivity.
    + discriminate.
    + unfold gat. cbn [ttext]. rewrite <- !app_comm_cons, <- app_assoc.
      unfold hexgre_at. cbn [app]. rewrite braced_hex_app by assumption.
      unfold pychr. rewrite (proj2 (N.ltb_lt _ _)) by exact Hv. cbn [bind].
      f_equal. f_equal. cbn [length]. rewrite app_length. cbn. lia.
Qed.

Lemma s1_ok t : tok_ok t -> tok_ok (s1 t) /\ nohex (s1 t).
Proof.
  destruct t as [c|c|x v|h]; cbn [s1 nohex]; auto.
  intros _. unfold enc1. destruct (inchars v us_syntax) eqn:E; cbn.
  - apply syntax_cases in E. unfold uUx. split; [|trivial]. lia.
  - apply syntax_false in E. tauto.
Qed.
Lemma s1_back t : back92 (s1 t) = back92 t.
Proof.
  destruct t as [c|c|x v|h]; try reflexivity. cbn [s1 back92]. unfold enc1.
  destruct (inchars v us_syntax) eqn:E; cbn; [reflexivity|].
  symmetry. apply N.eqb_neq. apply syntax_false in E. tauto.
Qed.
Lemma s1_uish t : tok_ok t -> uish (s1 t) -> uish t.
Proof.
  destruct t as [c|c|x v|h]; cbn [s1]; auto. intros _. unfold enc1.
  destruct (inchars v us_syntax) eqn:E; cbn; tauto.
Qed.
Lemma s1_sep l : forall prev, Forall tok_ok l -> tsep prev l -> tsep prev (map s1 l).
Proof.
  induction l as [|t l IH]; intros prev Ho Hs; [exact I|].
  destruct Hs as [Hp Hs]. inversion Ho; subst. cbn [map tsep]. rewrite s1_back. split.
  - intros Hpt Hu. apply (Hp Hpt). now apply s1_uish.
  - now apply IH.
Qed.

Lemma both_subs l : Forall tok_ok l -> tsep false l ->
  (do a <- hexescre_sub (concat (map ttext l)); hexgre_sub a) =
  Ok (concat (map ttext (flat_map s2 (map s1 l)))).
Proof.
  intros Ho Hs. rewrite hexescre_sub_eq, (hexsub_toks l false) by assumption. cbn [bind].
  change (hexgre_sub ?x) with (resub gat 0 x).
  apply (gresub_toks _ false).
  - apply Forall_map. eapply Forall_impl; [|exact Ho]. intros t H. now apply s1_ok.
  - apply Forall_map. eapply Forall_impl; [|exact Ho]. intros t H. now apply s1_ok.
  - now apply s1_sep.
Qed.

(** ** [struni] *)
Definition tval (t : tok) : pystr :=
  match t with TRaw c => [c] | TBack c => [simpleesc c] | THex _ v => [v] | TUB h => [hexnum h] end.
Lemma simpleescs_back c r : is_digit c = false -> simpleescs_sub (92 :: c :: r) = simpleesc c :: simpleescs_sub r.
Proof. intros H. cbn [simpleescs_sub]. rewrite H. reflexivity. Qed.
Lemma simpleescs_raw c r : c <> 92 -> simpleescs_sub (c :: r) = c :: simpleescs_sub r.
Proof.
  intros H. destruct c as [|p]; [reflexivity|].
  repeat (try reflexivity; destruct p as [p|p|]; try reflexivity; try congruence).
Qed.
Definition undigit (t : tok) : Prop := match t with TBack c => is_digit c = false | TUB _ => False | _ => True end.
Lemma simpleescs_toks l : Forall tok_ok l -> Forall undigit l -> 
  simpleescs_sub (concat (map ttext (map s1 l))) = concat (map tval l).
Proof.
  induction l as [|t l IH]; intros Ho Hu; [reflexivity|].
  inversion Ho; inversion Hu; subst. cbn [map concat].
  destruct t as [c|c|x v|h]; cbn [s1 ttext tval app].
  - rewrite simpleescs_raw by assumption. now rewrite IH.
  - rewrite simpleescs_back by assumption. now rewrite IH.
  - rewrite enc1_text. unfold escapechar. destruct (inchars v us_syntax) eqn:E; cbn [app].
    + rewrite simpleescs_back, simpleesc_syntax, IH; auto.
      apply syntax_cases in E. repeat destruct E as [->|E]; subst; reflexivity.
    + rewrite simpleescs_raw by (apply syntax_false in E; tauto). now rewrite IH.
  - contradiction.
Qed.
Lemma struni_toks l : Forall tok_ok l -> Forall undigit l -> tsep false l ->
  struni (concat (map ttext l)) = Ok (concat (map tval l)).
Proof.
  intros Ho Hu Hs. unfold struni. rewrite hexescre_sub_eq, (hexsub_toks l false) by assumption. cbn [bind].
  now rewrite simpleescs_toks.
Qed.

(** * The items of a class after the substitutions *)
Inductive core := CL (c : N) | CB (c : N).
Definition ctext (k : core) : pystr := match k with CL c => [c] | CB c => [92; c] end.
Definition cval (k : core) : N := match k with CL c => c | CB c => simpleesc c end.
Definition cback (k : core) : bool := match k with CB c => N.eqb c 92 | CL _ => false end.
Inductive citem := C1 (k : core) | CS (l : list core).
Definition citext (i : citem) : pystr := match i with C1 k => ctext k | CS l => 123 :: concat (map ctext l) ++ [125] end.
Definition cival (i : citem) : pystr := match i with C1 k => [cval k] | CS l => map cval l end.

Section Class.
  Variable ud : N -> bool.
  Definition core_ok (k : core) : Prop :=
    match k with CL c => inchars c us_syntax = false | CB c => intable ud c = false end.
  Definition lastback (l : list core) : bool := match rev l with [] => false | k :: _ => cback k end.
  Definition citem_ok (i : citem) : Prop :=
    match i with C1 k => core_ok k | CS l => Forall core_ok l /\ lastback l = false end.

  Lemma intable_digit c : intable ud c = false -> is_digit c = false.
  Proof. unfold intable. intros H. apply orb_false_elim in H. tauto. Qed.
  Lemma simpleescs_core l : Forall core_ok l -> simpleescs_sub (concat (map ctext l)) = map cval l.
  Proof.
    induction 1 as [|k l Hk Hl IH]; [reflexivity|]. destruct k as [c|c]; cbn [map concat ctext cval app].
    - rewrite simpleescs_raw by (apply syntax_false in Hk; tauto). now rewrite IH.
    - rewrite simpleescs_back by (now apply intable_digit). now rewrite IH.
  Qed.
  Lemma brc_core l : Forall core_ok l -> forall p, brc_ok p (concat (map ctext l)).
  Proof.
    induction 1 as [|k l Hk Hl IH]; intros p; [exact I|]. destruct k as [c|c]; cbn [map concat ctext app brc_ok].
    - split; [|apply IH]. intros ->. cbn in Hk. discriminate.
    - split; [discriminate|]. split; [reflexivity|apply IH].
  Qed.
  Lemma last_core l : Forall core_ok l -> lastback l = false -> forall d, d <> 92 -> last (concat (map ctext l)) d <> 92.
  Proof.
    intros Hl Hb d Hd. unfold lastback in Hb. destruct (rev l) as [|k l'] eqn:E.
    - apply (f_equal (@rev core)) in E. rewrite rev_involutive in E. subst. exact Hd.
    - apply (f_equal (@rev core)) in E. rewrite rev_involutive in E. cbn in E. subst.
      rewrite map_app, concat_app. cbn [map concat]. rewrite app_nil_r.
      apply Forall_app in Hl as [_ Hk]. apply Forall_inv in Hk.
      destruct k as [c|c]; cbn [ctext].
      + rewrite last_last. cbn in Hk. apply syntax_false in Hk. tauto.
      + change [92; c] with ([92] ++ [c]). rewrite app_assoc, last_last. cbn in Hb. now apply N.eqb_neq in Hb.
  Qed.

  Lemma parse_citem f s ind last e x r :
    citem_ok x -> skipn ind s = citext x ++ r -> ind <> e ->
    parseitem ud (S f) s ind last e = Ok (ind + length (citext x), last, Some (us_single (cival x)))%nat.
  Proof.
    intros Hx Hs Hne.
    assert (Hnth : forall i, nth_error s (ind + i) = nth_error (citext x ++ r) i).
    { intros i. now rewrite nth_error_skipn, Hs. }
    cbn [parseitem]. apply Nat.eqb_neq in Hne as ->.
    pose proof (Hnth O) as H0. rewrite Nat.add_0_r in H0. rewrite H0.
    destruct x as [[c|c]|l].
    - cbn [citext ctext app nth_error cival cval length]. cbn in Hx. rename Hx into Ec.
      apply syntax_false in Ec.
      replace (c =? 91) with false by (symmetry; apply N.eqb_neq; tauto).
      replace (inchars c (lit "|&-")) with false.
      2:{ symmetry. apply inchars_false. cbn. intuition congruence. }
      replace (c =? 123) with false by (symmetry; apply N.eqb_neq; tauto).
      replace (c =? 92) with false by (symmetry; apply N.eqb_neq; tauto).
      reflexivity.
    - cbn [citext ctext app nth_error cival cval length].
      change (92 =? 91) with false. change (inchars 92 (lit "|&-")) with false.
      change (92 =? 123) with false. change (92 =? 92) with true. cbn iota.
      rewrite (Hnth 1%nat). cbn [citext ctext app nth_error]. cbn in Hx. rewrite Hx. reflexivity.
    - cbn [citext cival] in *. destruct Hx as [Hl Hlast].
      cbn [app nth_error].
      change (123 =? 91) with false. change (inchars 123 (lit "|&-")) with false.
      change (123 =? 123) with true. cbn iota.
      set (E := concat (map ctext l)) in *.
      assert (Hpos : forall i, (i <= length E)%nat -> nth_error s (ind + 1 + i) = nth_error (E ++ [125]) i).
      { intros i Hi. rewrite <- Nat.add_assoc, Hnth. cbn [Nat.add app nth_error].
        rewrite nth_error_app1 by (rewrite app_length; cbn; lia). reflexivity. }
      set (t := (ind + 1 + length E)%nat).
      assert (Ht : nth_error s t = Some 125).
      { unfold t. rewrite Hpos by lia. rewrite nth_error_app2, Nat.sub_diag by lia. reflexivity. }
      assert (Hlen : (t < length s)%nat).
      { apply nth_error_Some. rewrite Ht. discriminate. }
      destruct (index_from_ok 125 s (ind + 1) t Ht) as (k & -> & Hk & Hkn); [unfold t; lia|].
      cbn [bind]. rewrite (close_brace_ok s t); auto; try lia.
      + cbn [bind].
        replace (t + 1)%nat with (ind + length (123%N :: E ++ [125%N]))%nat.
        2:{ unfold t. cbn [length]. rewrite app_length. cbn [length]. lia. }
        assert (Esl : simpleescs_sub (slice s (ind + 1) t) = map cval l); [|now rewrite Esl].
        { unfold slice.
          replace (skipn (ind + 1) s) with (E ++ 125 :: r).
          2:{ rewrite Nat.add_comm, <- skipn_skipn, Hs. cbn [app skipn]. now rewrite <- app_assoc. }
          replace (t - (ind + 1))%nat with (length E + 0)%nat by (unfold t; lia).
          rewrite firstn_app_2. cbn [firstn]. rewrite app_nil_r. now apply simpleescs_core. }
      + unfold brc_test. destruct (opt_is (nth_error s (t - 1)) 92) eqn:Eo; [|now rewrite andb_false_r].
        exfalso. apply opt_is_spec in Eo.
        destruct (list_eq_dec N.eq_dec E []) as [HE|HE].
        * replace (t - 1)%nat with (ind + 0)%nat in Eo by (unfold t; rewrite HE; cbn; lia).
          rewrite Hnth in Eo. cbn in Eo. discriminate.
        * assert (0 < length E)%nat by (clearbody E; destruct E; [congruence|cbn; lia]).
          replace (t - 1)%nat with (ind + 1 + (length E - 1))%nat in Eo by (unfold t; lia).
          rewrite Hpos in Eo by lia. rewrite nth_error_app1 in Eo by lia.
          rewrite (last_nth_error E 0 HE) in Eo. injection Eo as Eo. revert Eo. now apply last_core.
      + intros j Hj Hn. unfold brc_test.
        set (i := (j - (ind + 1))%nat).
        assert (Ej : j = (ind + 1 + i)%nat) by (unfold i; lia).
        assert (Hi : (i < length E)%nat) by (unfold t in Hj; lia).
        rewrite Ej in Hn. rewrite Hpos in Hn by lia. rewrite nth_error_app1 in Hn by lia.
        apply brc_ok_nth with (p1 := 123) in Hn; [|now apply brc_core].
        replace (j =? 0)%nat with false by (symmetry; apply Nat.eqb_neq; lia).
        cbn [negb andb]. apply opt_is_spec.
        replace (j - 1)%nat with (ind + i)%nat by lia. rewrite Hnth.
        destruct i as [|i]; [exact Hn|]. cbn [app nth_error] in Hn |- *.
        rewrite <- app_assoc. rewrite nth_error_app1 by lia. exact Hn.
  Qed.

  Lemma citext_pos x : (0 < length (citext x))%nat.
  Proof. destruct x as [[c|c]|l]; cbn; lia. Qed.
  Lemma class_loop_citems f s e l : forall fuel ind item acc r,
    Forall citem_ok l ->
    skipn ind s = concat (map citext l) ++ r ->
    e = (ind + length (concat (map citext l)))%nat ->
    (length l <= fuel)%nat ->
    exists item' acc',
      class_loop (parseitem ud (S f) s) fuel ind e item acc = Ok (e, item', acc') /\
      addopt acc' item' = fold_left sadd (map cival l) (addopt acc item).
  Proof.
    induction l as [|x l IH]; intros fuel ind item acc r Hl Hs He Hf.
    - cbn in He. rewrite Nat.add_0_r in He. subst e.
      exists item, acc. destruct fuel; cbn [class_loop]; rewrite Nat.ltb_irrefl; auto.
    - pose proof (Forall_inv Hl) as Hx. pose proof (Forall_inv_tail Hl) as Hl'.
      cbn [map concat] in Hs, He. rewrite <- app_assoc in Hs. rewrite app_length in He.
      pose proof (citext_pos x) as Hpos.
      destruct fuel as [|fuel]; [cbn in Hf; lia|].
      cbn [class_loop]. rewrite (proj2 (Nat.ltb_lt _ _)) by lia.
      rewrite (parse_citem f s ind item e x _ Hx Hs) by lia. cbn [bind].
      destruct (IH fuel (ind + length (citext x))%nat (Some (us_single (cival x))) (addopt acc item) r) as (i' & a' & H1 & H2); auto.
      + rewrite Nat.add_comm, <- skipn_skipn, Hs. rewrite skipn_app, skipn_all, Nat.sub_diag. reflexivity.
      + lia.
      + cbn in Hf. lia.
      + exists i', a'. split; [|exact H2]. exact H1.
  Qed.

  Lemma length_concat_citem l : (length l <= length (concat (map citext l)))%nat.
  Proof.
    induction l as [|x l IH]; [cbn; lia|]. cbn [map concat length]. rewrite app_length.
    pose proof (citext_pos x). lia.
  Qed.

  (** the closing bracket: flat view of the items *)
  Inductive mark := MK (k : core) | MO | MC.
  Definition mtext (m : mark) : pystr := match m with MK k => ctext k | MO => [123] | MC => [125] end.
  Definition marks (i : citem) : list mark := match i with C1 k => [MK k] | CS l => MO :: map MK l ++ [MC] end.
  Definition mback (m : mark) : bool := match m with MK k => cback k | _ => false end.
  Definition mbrk (m : mark) : Prop := match m with MK (CB 93) => True | _ => False end.
  Fixpoint msep (prev : bool) (l : list mark) : Prop :=
    match l with [] => True | m :: l' => (prev = true -> ~ mbrk m) /\ msep (mback m) l' end.
  Definition mark_ok (m : mark) : Prop := match m with MK k => core_ok k | _ => True end.
  Lemma marks_text i : concat (map mtext (marks i)) = citext i.
  Proof.
    destruct i as [k|l]; cbn; [apply app_nil_r|]. f_equal. rewrite map_app, concat_app. cbn.
    f_equal. induction l as [|k l IH]; [reflexivity|]. cbn. now rewrite IH.
  Qed.
  Lemma flat_marks_text l : concat (map mtext (flat_map marks l)) = concat (map citext l).
  Proof.
    induction l as [|i l IH]; [reflexivity|]. cbn [flat_map map concat].
    now rewrite map_app, concat_app, IH, marks_text.
  Qed.

  Lemma brk_marks l : forall p prev, Forall mark_ok l -> msep prev l ->
    (snd p = 92 -> prev = true) -> (snd p = 92 -> fst p = 92) ->
    brk_ok p (concat (map mtext l)) /\
    (snd (st p (concat (map mtext l))) = 92 -> fst (st p (concat (map mtext l))) = 92).
  Proof.
    induction l as [|m l IH]; intros p prev Ho Hs Hp Hf; [cbn; auto|].
    pose proof (Forall_inv Ho) as Hm. pose proof (Forall_inv_tail Ho) as Hl.
    destruct Hs as [Hb Hs]. cbn [map concat]. rewrite brk_ok_app, st_app.
    assert (H1 : brk_ok p (mtext m)).
    { destruct m as [[c|c]| |]; cbn.
      - split; [|trivial]. intros ->. cbn in Hm. discriminate.
      - split; [discriminate|]. split; [|trivial]. intros ->. split; [reflexivity|].
        intros F. apply (Hb (Hp F)). exact I.
      - split; [discriminate|trivial].
      - split; [discriminate|trivial]. }
    destruct (IH (st p (mtext m)) (mback m) Hl Hs) as [H2 H3].
    - destruct m as [[c|c]| |]; cbn; intros E; try discriminate.
      + subst. cbn in Hm. discriminate.
      + now apply N.eqb_eq.
    - destruct m as [[c|c]| |]; cbn; intros E; try discriminate; [|reflexivity].
      subst. cbn in Hm. discriminate.
    - tauto.
  Qed.

  Lemma marks_ok l : Forall citem_ok l -> Forall mark_ok (flat_map marks l).
  Proof.
    intros H. apply Forall_flat_map. eapply Forall_impl; [|exact H].
    intros [k|ks] Hi; cbn in *; [now constructor|]. constructor; [exact I|].
    apply Forall_app. split; [|repeat constructor]. apply Forall_map. apply Hi.
  Qed.

  Lemma us2list_citems l :
    Forall citem_ok l -> msep false (flat_map marks l) ->
    let s := 91 :: concat (map citext l) ++ [93] in
    (do r <- parse_loop ud (length s) s 0 []; match r with u :: _ => Ok (us_items u) | [] => Ok [] end)
    = Ok (fold_left sadd (map cival l) []).
  Proof.
    intros Hl Hsep s.
    destruct (brk_marks (flat_map marks l) (0, 91) false (marks_ok l Hl) Hsep) as [Hb Hlast]; [discriminate|discriminate|].
    rewrite flat_marks_text in Hb, Hlast.
    destruct (close_class_body _ Hb Hlast) as (e0 & He0 & He).
    fold s in He0, He.
    assert (Hlen : length s = (2 + length (concat (map citext l)))%nat).
    { unfold s. cbn. rewrite app_length. cbn. lia. }
    assert (Hc1 : exists c1, nth_error s 1 = Some c1 /\ c1 =? 94 = false).
    { unfold s. cbn [nth_error]. destruct l as [|x l]; [exists 93; auto|].
      apply Forall_inv in Hl. cbn [map concat]. destruct x as [[c|c]|ks]; cbn.
      - eexists. split; [reflexivity|]. cbn in Hl. apply syntax_false in Hl. apply N.eqb_neq. tauto.
      - eexists; split; [reflexivity|]; reflexivity.
      - eexists; split; [reflexivity|]; reflexivity. }
    destruct Hc1 as (c1 & Hc1 & Hc1').
    destruct (class_loop_citems (length (concat (map citext l))) s (S (length (concat (map citext l)))) l
                (length s) 1 None [] [93]) as (item' & acc' & Hloop & Hacc).
    - exact Hl.
    - reflexivity.
    - reflexivity.
    - pose proof (length_concat_citem l). lia.
    - assert (Hp : parseitem ud (length s) s 0 None (length s) =
        Ok (length s, None, Some (USet (fold_left sadd (map cival l) []) false true false))).
      { revert Hloop He. remember (S (length (concat (map citext l)))) as n eqn:En. intros Hloop He.
        assert (Hlen' : length s = S n) by lia.
        replace (parseitem ud (length s) s) with (parseitem ud (S n) s) by now rewrite Hlen'.
        cbn [parseitem].
        replace (0 =? length s)%nat with false by now rewrite Hlen'.
        change (nth_error s 0) with (Some 91). change (91 =? 91) with true. cbn iota.
        change (0 + 1)%nat with 1%nat. rewrite Hc1, Hc1'. cbn iota zeta. rewrite He0. cbn [bind]. rewrite He. cbn [bind].
        rewrite Hloop. cbn [bind]. fold (addopt acc' item'). rewrite Hacc. cbn [addopt].
        rewrite Hlen'. replace (n + 1)%nat with (S n) by lia. reflexivity. }
      assert (Hend : forall k a, parse_loop ud k s (length s) a = Ok a).
      { intros [|k] a; cbn [parse_loop]; rewrite Nat.ltb_irrefl; reflexivity. }
      assert (Hone : exists k, length s = S k) by (exists (length s - 1)%nat; lia).
      destruct Hone as (k & Hk).
      replace (parse_loop ud (length s) s) with (parse_loop ud (S k) s) by now rewrite Hk.
      cbn [parse_loop]. rewrite (proj2 (Nat.ltb_lt _ _)) by lia. rewrite Hp. cbn [bind].
      rewrite Hend. cbn [bind app].
      unfold truthy. cbn [us_items]. destruct (fold_left sadd (map cival l) []) as [|y ys] eqn:Ef; reflexivity.
  Qed.
End Class.
