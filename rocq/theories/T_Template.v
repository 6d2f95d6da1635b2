(** C71: expanding a template (lib/sldr/xmltemplate.py Templater.process). *)
From Coq Require Import String.
From Verif Require Import Py PyFacts M_Template.
Local Open Scope list_scope.
Local Open Scope nat_scope.

Lemma strip_prefix_Some p s r : strip_prefix p s = Some r <-> s = p ++ r.
Proof.
  revert s; induction p as [|x p IH]; intros s; cbn [strip_prefix app].
  - split; [intros [= ->]; reflexivity|intros ->; reflexivity].
  - destruct s as [|y s]; [split; discriminate|].
    destruct (N.eqb_spec x y) as [->|N1].
    + rewrite IH. split; [intros ->; reflexivity|intros [= ->]; reflexivity].
    + split; [discriminate|congruence].
Qed.

Lemma dset_In {V} (d : list (pystr * V)) k v x : In x (dset streq d k v) -> x = (k, v) \/ In x d.
Proof.
  induction d as [|[k' v'] d IH]; cbn [dset]; intros H.
  - destruct H as [<-|[]]. now left.
  - destruct (streq_spec k k') as [->|_].
    + destruct H as [<-|H]; [now left | right; now right].
    + destruct H as [<-|H]; [right; now left|]. destruct (IH H) as [->|H']; [now left | right; now right].
Qed.

(** ** Specification *)
(** an element of the template language, by its name *)
Definition is_template (n : tn) : Prop := exists name, tag_of n = lit "{uri://nrsi.sil.org/template/0.1}" ++ name.
(** an attribute that the template language computes *)
Definition computed (k : pystr) : Prop := exists name, k = lit "{uri://nrsi.sil.org/template_attributes/0.1}" ++ name.

(** every element below *)
Inductive below (P : tn -> Prop) : tn -> Prop :=
| below_intro n : (forall c, In c (kids_of n) -> P c /\ below P c) -> below P n.

Section Induction.
Variable P : tn -> Prop.
Hypothesis H : forall t a x tl ks, Forall P ks -> P (TN t a x tl ks).
Fixpoint tn_ind' (n : tn) : P n :=
  match n with
  | TN t a x tl ks => H t a x tl ks ((fix go (l : list tn) : Forall P l :=
      match l with [] => Forall_nil P | c :: l' => Forall_cons c (tn_ind' c) (go l') end) ks)
  end.
End Induction.

Section Template.
Variable C : Type.
Variable ctext : C -> option pystr.
Notation value := (value C).
Notation vars := (list (pystr * value)).
Variable vstr : value -> pystr.
Variable xp : vars -> value -> option pystr -> res (raw C).
Notation process := (process C ctext vstr xp).
Notation xpath := (xpath C xp).
Notation processattrib := (processattrib C vstr xp).
Notation one_kid := (one_kid C ctext vstr xp).

Fixpoint kids_loop (ctx : value) (ks : list tn) (text : option pystr) (vs : vars) : res (option pystr * list tn * vars) :=
  match ks with
  | [] => Ok (text, [], vs)
  | c :: ks' =>
      do (to, vs1) <- one_kid process c ctx vs text;
      do (to', vs2) <- kids_loop ctx ks' (fst to) vs1;
      Ok (fst to', snd to ++ snd to', vs2)
  end.
Lemma process_eq t a x tl ks ctx vs : process (TN t a x tl ks) ctx vs =
  do (to, vs') <- kids_loop ctx ks x vs; Ok (TN t a (fst to) tl (snd to), vs').
Proof.
  cbn [M_Template.process]. f_equal.
  revert x vs. induction ks as [|c ks IH]; intros x vs; [reflexivity|]. cbn [kids_loop].
  destruct (one_kid process c ctx vs x) as [[to vs1]|e]; cbn [bind]; [|reflexivity]. now rewrite IH.
Qed.

Lemma process_inv t a x tl ks ctx vs n' vs' : process (TN t a x tl ks) ctx vs = Ok (n', vs') ->
  exists x' out, kids_loop ctx ks x vs = Ok (x', out, vs') /\ n' = TN t a x' tl out.
Proof.
  rewrite process_eq. destruct (kids_loop ctx ks x vs) as [[[x' out] vs1]|e]; cbn [bind]; [|discriminate].
  intros E. injection E as <- <-. exists x', out. now split.
Qed.

Lemma tmpl_None n : strip_prefix tmpl (tag_of n) = None <-> ~ is_template n.
Proof.
  unfold is_template. fold tmpl. destruct (strip_prefix tmpl (tag_of n)) as [r|] eqn:E.
  - split; [discriminate|]. intros H. exfalso. apply H. exists r. now apply strip_prefix_Some.
  - split; [|reflexivity]. intros _ (name & X). apply strip_prefix_Some in X. congruence.
Qed.

(** ** No element of the template language is left *)
Lemma kids_loop_spec (P : tn -> Prop) ctx : forall ks x vs x' out vs',
  kids_loop ctx ks x vs = Ok (x', out, vs') ->
  (forall c vs0 x0 x1 o vs1, In c ks -> one_kid process c ctx vs0 x0 = Ok (x1, o, vs1) -> forall d, In d o -> P d) ->
  forall d, In d out -> P d.
Proof.
  induction ks as [|c ks IH]; intros x vs x' out vs' H HP d Hd; cbn [kids_loop] in H.
  - injection H as <- <- <-. destruct Hd.
  - destruct (one_kid process c ctx vs x) as [[[x1 o1] vs1]|e] eqn:E; cbn [bind] in H; [|discriminate].
    destruct (kids_loop ctx ks (fst (x1, o1)) vs1) as [[[x2 o2] vs2]|e] eqn:E2; cbn [bind] in H; [|discriminate].
    injection H as <- <- <-. cbn [fst snd] in *. apply in_app_or in Hd. destruct Hd as [Hd|Hd].
    + eapply HP; [now left | exact E | exact Hd].
    + eapply IH; [exact E2 | | exact Hd]. intros c0 vs0 x0 x3 o vs3 Hc. apply HP. now right.
Qed.

Lemma each_node_spec (body : value -> res (tn * vars)) : forall ns out, each_node C body ns = Ok out ->
  exists xs, Forall2 (fun n x => exists w, body n = Ok (x, w)) ns xs /\ out = concat (map kids_of xs).
Proof.
  induction ns as [|n ns IH]; intros out H; cbn [each_node] in H.
  - injection H as <-. exists []. split; constructor.
  - destruct (body n) as [[x w]|e] eqn:E; cbn [bind] in H; [|discriminate].
    destruct (each_node C body ns) as [r|e] eqn:E2; cbn [bind] in H; [|discriminate].
    injection H as <-. destruct (IH r eq_refl) as (xs & A & ->). exists (x :: xs). split; [|reflexivity].
    constructor; [now exists w | exact A].
Qed.

Lemma each_turn_in (body : vars -> value -> res (tn * vars)) nodes upper : forall turns vs out vs',
  each_turn C body nodes upper vs turns = Ok (out, vs') ->
  forall d, In d out -> exists vs1 n x w, body vs1 n = Ok (x, w) /\ In d (kids_of x).
Proof.
  induction turns as [|t turns IH]; intros vs out vs' H d Hd; cbn [each_turn] in H.
  - injection H as <- <-. destruct Hd.
  - destruct (nodes (dupdate C upper t)) as [p|e]; cbn [bind] in H; [|discriminate].
    destruct (each_node C (body (dupdate C upper t)) (path_nodes C p)) as [here|e] eqn:E; cbn [bind] in H; [|discriminate].
    destruct (each_turn C body nodes upper (dupdate C upper t) turns) as [[rest vs2]|e] eqn:E2; cbn [bind] in H; [|discriminate].
    injection H as <- <-. apply in_app_or in Hd. destruct Hd as [Hd|Hd]; [|eapply IH; eassumption].
    destruct (each_node_spec _ _ _ E) as (xs & A & ->). apply in_concat in Hd. destruct Hd as (l & Hl & Hd).
    apply in_map_iff in Hl. destruct Hl as (x & <- & Hx).
    clear -A Hx Hd. induction A as [|n y ns ys (w & Hy) A IHA]; [destruct Hx|]. destruct Hx as [<-|Hx]; [|auto].
    exists (dupdate C upper t), n, y, w. now split.
Qed.

Theorem C71_no_template_left n : forall ctx vs n' vs', process n ctx vs = Ok (n', vs') ->
  below (fun c => ~ is_template c) n'.
Proof.
  induction n as [t a x tl ks IH] using tn_ind'. intros ctx vs n' vs' H.
  apply process_inv in H. destruct H as (x' & out & H & ->). constructor. cbn [kids_of].
  apply (kids_loop_spec (fun d => ~ is_template d /\ below (fun c => ~ is_template c) d) _ _ _ _ _ _ _ H).
  clear x vs x' out vs' H. intros c vs x x' o vs' Hc H d Hd.
  rewrite Forall_forall in IH. specialize (IH c Hc).
  assert (K : forall ctx vs c' vs', process c ctx vs = Ok (c', vs') -> In d (kids_of c') -> ~ is_template d /\ below (fun c => ~ is_template c) d).
  { intros ctx0 vs0 c' vs0' Hp Hin. apply IH in Hp. inversion Hp as [? HB]; subst. now apply HB. }
  unfold M_Template.one_kid in H. destruct (strip_prefix tmpl (tag_of c)) as [name|] eqn:E.
  - destruct (streq name (lit "variable")).
    { destruct (set_variable C vstr xp vs ctx (attrs_of c) (text_of c)); cbn [bind] in H; [|discriminate]. injection H as <- <- <-. destruct Hd. }
    destruct (streq name (lit "value")).
    { destruct (get_value C ctext vstr xp vs ctx (attrs_of c)); cbn [bind] in H; [|discriminate]. injection H as <- <- <-. destruct Hd. }
    destruct (streq name (lit "context")).
    { destruct (processattrib vs ctx (attrs_of c)) as [a'|]; cbn [bind] in H; [|discriminate].
      destruct (attr a' (tmpl ++ lit "path")) as [p|]; cbn [bind] in H; [|discriminate].
      destruct (xpath vs ctx (Some p)) as [ctx'|]; cbn [bind] in H; [|discriminate].
      destruct (process c ctx' vs) as [[c' w]|] eqn:EP; cbn [bind] in H; [|discriminate].
      injection H as <- <- <-. cbn [fst] in Hd. eapply K; eassumption. }
    destruct (streq name (lit "foreach")).
    { destruct (loop_vars C xp vs ctx (attrs_of c) (it_empty C)) as [it|]; cbn [bind] in H; [|discriminate].
      match type of H with bind ?e _ = _ => destruct e as [[out vs2]|] eqn:EE end; cbn [bind] in H; [|discriminate].
      injection H as <- <- <-. destruct (each_turn_in _ _ _ _ _ _ _ EE d Hd) as (vs1 & n & y & w & Hp & Hin).
      eapply K; eassumption. }
    injection H as <- <- <-. destruct Hd.
  - assert (NT : ~ is_template c) by (apply tmpl_None; exact E).
    destruct c as [ct ca cx ctl ck]. cbn [kids_of tag_of attrs_of text_of tail_of] in *. destruct ck as [|c1 ck].
    + injection H as <- <- <-. destruct Hd as [<-|[]]. split; [exact NT|]. constructor. intros c0 [].
    + destruct (processattrib vs ctx ca) as [a'|]; cbn [bind] in H; [|discriminate].
      destruct (process (TN ct ca cx ctl (c1 :: ck)) ctx vs) as [[c' w]|] eqn:EP; cbn [bind] in H; [|discriminate].
      injection H as <- <- <-. destruct Hd as [<-|[]]. split; [exact NT|]. constructor. cbn [kids_of].
      pose proof (IH _ _ _ _ EP) as HB. inversion HB as [? HB']; subst. exact HB'.
Qed.

(** ** What is not of the template language stays *)
Lemma processattrib_plain vs ctx a : (forall k v, In (k, v) a -> ~ computed k) -> processattrib vs ctx a = Ok a.
Proof.
  intros H. unfold M_Template.processattrib.
  assert (G : forall items b, (forall k v, In (k, v) items -> ~ computed k) -> attrib_loop C vstr xp vs ctx items b = Ok b).
  { induction items as [|[k v] items IH]; intros b Hi; [reflexivity|]. cbn [attrib_loop].
    destruct (strip_prefix tmpla k) as [r|] eqn:E.
    - exfalso. apply (Hi k v (or_introl eq_refl)). exists r. now apply strip_prefix_Some.
    - apply IH. intros k' v' Hin. apply (Hi k' v'). now right. }
  now apply G.
Qed.

Theorem C71_plain_unchanged n : forall ctx vs,
  below (fun c => ~ is_template c /\ forall k v, In (k, v) (attrs_of c) -> ~ computed k) n ->
  process n ctx vs = Ok (n, vs).
Proof.
  induction n as [t a x tl ks IH] using tn_ind'. intros ctx vs HB. inversion HB as [? HK]; subst. cbn [kids_of] in HK.
  rewrite process_eq.
  assert (G : kids_loop ctx ks x vs = Ok (x, ks, vs)).
  { clear HB. induction ks as [|c ks IHk]; [reflexivity|]. cbn [kids_loop].
    inversion IH as [|? ? I1 I2]; subst. destruct (HK c (or_introl eq_refl)) as [[NT NA] BC].
    assert (E : one_kid process c ctx vs x = Ok (x, [c], vs)).
    { unfold M_Template.one_kid. apply tmpl_None in NT. rewrite NT. destruct c as [ct ca cx ctl ck].
      cbn [kids_of tag_of attrs_of text_of tail_of] in *. destruct ck as [|c1 ck]; [reflexivity|].
      rewrite processattrib_plain by exact NA. cbn [bind]. rewrite I1 by exact BC. reflexivity. }
    rewrite E. cbn [bind fst snd]. rewrite IHk; [reflexivity | exact I2|]. intros c0 H0. apply HK. now right. }
  rewrite G. reflexivity.
Qed.

(** The children are expanded in order, each in its place: an element that is not of the template
    language stays, with its name and the text behind it; only contexts and loops put other
    elements in their place; all else of the template language leaves nothing. *)
Theorem C71_children t a x tl ks ctx vs n' vs' : process (TN t a x tl ks) ctx vs = Ok (n', vs') ->
  exists x' segs, n' = TN t a x' tl (concat segs) /\
  Forall2 (fun c seg =>
    (~ is_template c -> exists c', seg = [c'] /\ tag_of c' = tag_of c /\ tail_of c' = tail_of c) /\
    (is_template c -> tag_of c <> lit "{uri://nrsi.sil.org/template/0.1}context" ->
       tag_of c <> lit "{uri://nrsi.sil.org/template/0.1}foreach" -> seg = [])) ks segs.
Proof.
  intros H. apply process_inv in H. destruct H as (x' & out & H & ->). exists x'.
  assert (G : exists segs, out = concat segs /\ Forall2 (fun c seg =>
    (~ is_template c -> exists c', seg = [c'] /\ tag_of c' = tag_of c /\ tail_of c' = tail_of c) /\
    (is_template c -> tag_of c <> lit "{uri://nrsi.sil.org/template/0.1}context" ->
       tag_of c <> lit "{uri://nrsi.sil.org/template/0.1}foreach" -> seg = [])) ks segs);
    [|destruct G as (segs & -> & G); exists segs; now split].
  revert x vs x' out vs' H. induction ks as [|c ks IH]; intros x vs x' out vs' H; cbn [kids_loop] in H.
  - injection H as <- <- <-. exists []. split; constructor.
  - destruct (one_kid process c ctx vs x) as [[[x1 o1] vs1]|e] eqn:E; cbn [bind] in H; [|discriminate].
    destruct (kids_loop ctx ks (fst (x1, o1)) vs1) as [[[x2 o2] vs2]|e] eqn:E2; cbn [bind] in H; [|discriminate].
    injection H as <- <- <-. cbn [fst snd] in *. destruct (IH _ _ _ _ _ E2) as (segs & -> & F).
    exists (o1 :: segs). split; [reflexivity|]. constructor; [|exact F].
    unfold M_Template.one_kid in E. split.
    + intros NT. apply tmpl_None in NT. rewrite NT in E. destruct (kids_of c) as [|c1 ck] eqn:EK.
      * injection E as <- <- <-. exists c. repeat split.
      * destruct (processattrib vs ctx (attrs_of c)) as [a'|]; cbn [bind] in E; [|discriminate].
        destruct (process c ctx vs) as [[c' w]|] eqn:EP; cbn [bind] in E; [|discriminate].
        injection E as <- <- <-. eexists. repeat split.
    + intros (nm & T) NC NF. fold tmpl in T. assert (T' := T). apply strip_prefix_Some in T'. rewrite T' in E.
      destruct (streq nm (lit "variable")).
      { destruct (set_variable C vstr xp vs ctx (attrs_of c) (text_of c)); cbn [bind] in E; [|discriminate]. now injection E as <- <- <-. }
      destruct (streq nm (lit "value")).
      { destruct (get_value C ctext vstr xp vs ctx (attrs_of c)); cbn [bind] in E; [|discriminate]. now injection E as <- <- <-. }
      destruct (streq_spec nm (lit "context")) as [X|_]; [exfalso; apply NC; rewrite T, X; reflexivity|].
      destruct (streq_spec nm (lit "foreach")) as [X|_]; [exfalso; apply NF; rewrite T, X; reflexivity|].
      now injection E as <- <- <-.
Qed.

(** ** Contexts and loops *)
(** what a path stands for: a string, or the nodes and strings it selects; one that is selected
    alone stands for itself *)
Definition evaluates (vs : vars) (ctx : value) (path : option pystr) (v : value) : Prop :=
  xp vs ctx path = Ok (RStr C match v with VStr _ s => s | _ => [] end) /\ (exists s, v = VStr C s) \/
  (exists i, xp vs ctx path = Ok (RList C [i]) /\ v = match i with IStr _ s => VStr C s | INode _ nd => VNode C nd end) \/
  (exists l, xp vs ctx path = Ok (RList C l) /\ length l <> 1 /\ v = VList C l).
Lemma xpath_evaluates vs ctx p v : xpath vs ctx p = Ok v -> evaluates vs ctx p v.
Proof.
  unfold M_Template.xpath, evaluates. destruct (xp vs ctx p) as [[s|[|i [|j l]]|]|e]; intros H; try discriminate; injection H as <-.
  - left. split; [reflexivity|]. now exists s.
  - right. right. exists []. repeat split. discriminate.
  - right. left. exists i. split; [reflexivity|]. now destruct i.
  - right. right. exists (i :: j :: l). repeat split. cbn [length]. lia.
Qed.

(** The children of a context are those of its expansion with the node of its path; the
    variables set in it are forgotten. *)
Theorem C71_context t a x tl c ctx vs n' vs' :
  tag_of c = lit "{uri://nrsi.sil.org/template/0.1}context" ->
  (forall k v, In (k, v) (attrs_of c) -> ~ computed k) ->
  process (TN t a x tl [c]) ctx vs = Ok (n', vs') ->
  exists path ctx' c' w, dget streq (attrs_of c) (lit "{uri://nrsi.sil.org/template/0.1}path") = Some path /\
    evaluates vs ctx (Some path) ctx' /\ process c ctx' vs = Ok (c', w) /\
    n' = TN t a x tl (kids_of c') /\ vs' = vs.
Proof.
  intros T NA H. apply process_inv in H. destruct H as (x' & out & H & ->). cbn [kids_loop] in H.
  unfold M_Template.one_kid in H.
  assert (T' : strip_prefix tmpl (tag_of c) = Some (lit "context")) by (rewrite T; reflexivity). rewrite T' in H.
  change (streq (lit "context") (lit "variable")) with false in H. change (streq (lit "context") (lit "value")) with false in H.
  change (streq (lit "context") (lit "context")) with true in H. cbv iota in H.
  rewrite processattrib_plain in H by exact NA. cbn [bind] in H. unfold attr in H.
  change (lit "{uri://nrsi.sil.org/template/0.1}path") with (tmpl ++ lit "path").
  destruct (dget streq (attrs_of c) (tmpl ++ lit "path")) as [p|]; cbn [bind] in H; [|discriminate].
  destruct (xpath vs ctx (Some p)) as [ctx'|] eqn:EX; cbn [bind] in H; [|discriminate].
  destruct (process c ctx' vs) as [[c' w]|] eqn:EP; cbn [bind] in H; [|discriminate].
  cbn [fst snd] in H. rewrite app_nil_r in H. injection H as <- <- <-.
  exists p, ctx', c', w. split; [reflexivity|]. split; [now apply xpath_evaluates|]. split; [exact EP|]. split; reflexivity.
Qed.

Lemma it_single_rest keys (vals : list value) fuel :
  it_rest C vstr fuel (mkIter C keys (map (fun v => [v]) vals) (map (fun _ => 0) vals)) = [].
Proof.
  destruct fuel as [|fuel]; [reflexivity|]. cbn [it_rest it_values it_indices].
  assert (E : it_raise C (map (fun v => [v]) vals) (map (fun _ => 0) vals) = None).
  { induction vals as [|v vals IH]; [reflexivity|]. cbn [map it_raise length Nat.add Nat.ltb Nat.leb]. now rewrite IH. }
  now rewrite E.
Qed.

Lemma loop_vars_spec vs ctx : forall items keys (vals : list value) it,
  (forall k i, In (k, i) keys -> i < length vals) ->
  loop_vars C xp vs ctx items (mkIter C keys (map (fun v => [v]) vals) (map (fun _ => 0) vals)) = Ok it ->
  exists keys' vals', it = mkIter C keys' (map (fun v => [v]) vals') (map (fun _ => 0) vals') /\
    (exists ext, vals' = vals ++ ext) /\
    (forall k i, In (k, i) keys' -> i < length vals') /\
    (NoDup (dkeys keys) -> NoDup (dkeys keys')) /\
    (NoDup (map fst items) -> forall k,
      match dget streq items (tmpla ++ k) with
      | Some q => exists v i, xpath vs ctx (Some q) = Ok v /\ dget streq keys' k = Some i /\ nth_error vals' i = Some v
      | None => dget streq keys' k = dget streq keys k
      end).
Proof.
  induction items as [|[k v] items IH]; intros keys vals it Hlt H; cbn [loop_vars] in H.
  - injection H as <-. exists keys, vals. split; [reflexivity|]. split; [exists []; now rewrite app_nil_r|].
    split; [exact Hlt|]. split; [auto|]. reflexivity.
  - destruct (strip_prefix tmpla k) as [newk|] eqn:E.
    + destruct (xpath vs ctx (Some v)) as [nv|] eqn:EX; cbn [bind] in H; [|discriminate].
      unfold it_set in H. cbn [it_keys it_values it_indices] in H.
      replace (map (fun v => [v]) vals ++ [[nv]]) with (map (fun v : value => [v]) (vals ++ [nv])) in H by now rewrite map_app.
      replace (map (fun _ => 0) vals ++ [0]) with (map (fun _ : value => 0) (vals ++ [nv])) in H by now rewrite map_app.
      apply IH in H.
      * destruct H as (keys' & vals' & -> & (ext & Ev) & Hlt' & HND & HD). exists keys', vals'. split; [reflexivity|].
        split; [exists ([nv] ++ ext); rewrite Ev; now rewrite <- app_assoc|]. split; [exact Hlt'|].
        split; [intros ND; apply HND; now apply (dset_NoDup streq streq_spec)|].
        intros ND k0. cbn [map fst] in ND. inversion ND as [|? ? Hnk ND']; subst.
        specialize (HD ND' k0). cbn [dget]. apply strip_prefix_Some in E.
        destruct (streq_spec (tmpla ++ k0) k) as [X|X].
        -- assert (k0 = newk) by (rewrite E in X; now apply app_inv_head in X). subst k0. rewrite X in HD.
           assert (NI : dget streq items k = None) by (apply (dget_None streq streq_spec); exact Hnk).
           rewrite NI in HD. exists nv, (length vals). split; [exact EX|].
           rewrite map_length in HD. rewrite (dget_dset_same streq streq_spec) in HD. split; [exact HD|].
           rewrite <- app_assoc. rewrite nth_error_app2 by lia. now rewrite Nat.sub_diag.
        -- destruct (dget streq items (tmpla ++ k0)) as [q|]; [exact HD|]. rewrite HD.
           apply (dget_dset_other streq streq_spec). congruence.
      * intros k0 i Hin. rewrite app_length. cbn [length].
        apply dset_In in Hin. rewrite map_length in Hin.
        destruct Hin as [Hin|Hin]; [injection Hin as <- <-; lia | specialize (Hlt _ _ Hin); lia].
    + apply IH in H; [|exact Hlt]. destruct H as (keys' & vals' & -> & Ev & Hlt' & HND & HD).
      exists keys', vals'. split; [reflexivity|]. split; [exact Ev|]. split; [exact Hlt'|]. split; [exact HND|].
      intros ND k0. cbn [map fst] in ND. inversion ND as [|? ? Hnk ND']; subst.
      specialize (HD ND' k0). cbn [dget]. destruct (streq_spec (tmpla ++ k0) k) as [X|X]; [|exact HD].
      exfalso. rewrite <- X in E. assert (Y : strip_prefix tmpla (tmpla ++ k0) = Some k0) by (now apply strip_prefix_Some). congruence.
Qed.

Lemma asdict_single keys (vals : list value) : (forall k i, In (k, i) keys -> i < length vals) ->
  forall k, dget streq (it_asdict C vstr (mkIter C keys (map (fun v => [v]) vals) (map (fun _ => 0) vals))) k
  = match dget streq keys k with Some i => option_map (fun v => VStr C (vstr v)) (nth_error vals i) | None => None end.
Proof.
  unfold it_asdict. cbn [it_keys it_values it_indices]. induction keys as [|[k0 i] keys IH]; intros Hlt k; [reflexivity|].
  cbn [flat_map fst snd dget]. rewrite nth_error_map.
  assert (Hi : i < length vals) by (apply (Hlt k0); now left).
  destruct (nth_error vals i) as [v|] eqn:E; [|apply nth_error_None in E; lia]. cbn [option_map].
  assert (Ez : nth i (map (fun _ : value => 0) vals) 0 = 0).
  { clear. revert i. induction vals; intros [|i]; cbn [map nth]; auto. }
  rewrite Ez. cbn [nth_error app dget]. destruct (streq k k0); [now rewrite E|].
  apply IH. intros k1 i1 Hin. apply (Hlt k1). now right.
Qed.
Lemma asdict_NoDup keys (vals : list value) : NoDup (dkeys keys) ->
  NoDup (dkeys (it_asdict C vstr (mkIter C keys (map (fun v => [v]) vals) (map (fun _ => 0) vals)))).
Proof.
  unfold it_asdict. cbn [it_keys it_values it_indices]. unfold dkeys. induction keys as [|[k0 i] keys IH]; intros ND; [constructor|].
  cbn [map fst] in ND. inversion ND as [|? ? N1 N2]; subst. cbn [flat_map fst snd]. rewrite map_app.
  assert (S : forall x, In x (map fst (flat_map (fun ki : pystr * nat =>
     match nth_error (map (fun v : value => [v]) vals) (snd ki) with
     | Some l => match nth_error l (nth (snd ki) (map (fun _ : value => 0) vals) 0) with
                 | Some v => [(fst ki, VStr C (vstr v))] | None => [] end
     | None => [] end) keys)) -> In x (map fst keys)).
  { intros x Hx. apply in_map_iff in Hx. destruct Hx as ((a, b) & <- & Hx). apply in_flat_map in Hx.
    destruct Hx as ((k1, i1) & Hk & Hx). apply in_map_iff. exists (k1, i1). split; [|exact Hk]. cbn [fst snd] in *.
    destruct (nth_error (map (fun v : value => [v]) vals) i1) as [l|]; [|destruct Hx].
    destruct (nth_error l _); [|destruct Hx]. destruct Hx as [X|[]]. now injection X. }
  destruct (nth_error (map (fun v : value => [v]) vals) i) as [l|]; [|apply IH, N2].
  destruct (nth_error l _); [|apply IH, N2]. cbn [map fst app]. constructor; [intros Hx; apply N1, S, Hx | apply IH, N2].
Qed.

Lemma dget_dupdate : forall (e d : vars), NoDup (dkeys e) -> forall k,
  dget streq (dupdate C d e) k = match dget streq e k with Some v => Some v | None => dget streq d k end.
Proof.
  unfold dupdate. induction e as [|[k0 v0] e IH]; intros d ND k; [reflexivity|].
  unfold dkeys in ND. cbn [map fst] in ND. inversion ND as [|? ? N1 N2]; subst. cbn [fold_left fst snd dget].
  rewrite IH by exact N2. destruct (streq_spec k k0) as [->|NE].
  - assert (E : dget streq e k0 = None) by (apply (dget_None streq streq_spec); exact N1). rewrite E.
    apply (dget_dset_same streq streq_spec).
  - destruct (dget streq e k); [reflexivity|]. apply (dget_dset_other streq streq_spec). congruence.
Qed.

(** the members of a result: itself, if it is not a list *)
Definition members (v : value) : list value := match v with VList _ l => map (as_value C) l | _ => [v] end.

(** A loop puts one expansion of its content in its place for every node of its path, in their
    order. All of them start with the same variables: those before, and the loop variables, each
    as a string. These loop variables stay set behind the loop. *)
Theorem C71_foreach t a x tl c ctx vs n' vs' :
  tag_of c = lit "{uri://nrsi.sil.org/template/0.1}foreach" -> NoDup (map fst (attrs_of c)) ->
  process (TN t a x tl [c]) ctx vs = Ok (n', vs') ->
  (forall k, match dget streq (attrs_of c) (lit "{uri://nrsi.sil.org/template_attributes/0.1}" ++ k) with
             | Some q => exists v, evaluates vs ctx (Some q) v /\ dget streq vs' k = Some (VStr C (vstr v))
             | None => dget streq vs' k = dget streq vs k
             end) /\
  exists path p xs, dget streq (attrs_of c) (lit "{uri://nrsi.sil.org/template/0.1}path") = Some path /\
    evaluates vs' ctx (Some path) p /\
    Forall2 (fun n c' => exists w, process c n vs' = Ok (c', w)) (members p) xs /\
    n' = TN t a x tl (concat (map kids_of xs)).
Proof.
  intros T ND H. apply process_inv in H. destruct H as (x' & out & H & ->). cbn [kids_loop] in H.
  unfold M_Template.one_kid in H.
  assert (T' : strip_prefix tmpl (tag_of c) = Some (lit "foreach")) by (rewrite T; reflexivity). rewrite T' in H.
  change (streq (lit "foreach") (lit "variable")) with false in H. change (streq (lit "foreach") (lit "value")) with false in H.
  change (streq (lit "foreach") (lit "context")) with false in H. change (streq (lit "foreach") (lit "foreach")) with true in H. cbv iota in H.
  destruct (loop_vars C xp vs ctx (attrs_of c) (it_empty C)) as [it|] eqn:EL; cbn [bind] in H; [|discriminate].
  apply (loop_vars_spec vs ctx (attrs_of c) [] []) in EL; [|intros k i []].
  destruct EL as (keys & vals & -> & _ & Hlt & HND & HD). specialize (HD ND). specialize (HND (NoDup_nil _)).
  unfold it_dicts in H. rewrite it_single_rest in H. cbn [each_turn] in H. unfold attr in H.
  set (d := it_asdict C vstr (mkIter C keys (map (fun v => [v]) vals) (map (fun _ => 0) vals))) in *.
  change (lit "{uri://nrsi.sil.org/template/0.1}path") with (tmpl ++ lit "path").
  change (lit "{uri://nrsi.sil.org/template_attributes/0.1}") with tmpla.
  destruct (dget streq (attrs_of c) (tmpl ++ lit "path")) as [p|]; cbn [bind] in H; [|discriminate].
  destruct (xpath (dupdate C vs d) ctx (Some p)) as [pv|] eqn:EX; cbn [bind] in H; [|discriminate].
  destruct (each_node C _ (path_nodes C pv)) as [here|] eqn:EN; cbn [bind] in H; [|discriminate].
  cbn [fst snd] in H. rewrite !app_nil_r in H. injection H as <- <- <-.
  split.
  - intros k. specialize (HD k).
    rewrite dget_dupdate by (apply asdict_NoDup; exact HND). unfold d. rewrite asdict_single by exact Hlt.
    destruct (dget streq (attrs_of c) (tmpla ++ k)) as [q|].
    + destruct HD as (v & i & A & B & D). exists v. split; [now apply xpath_evaluates|]. now rewrite B, D.
    + rewrite HD. reflexivity.
  - destruct (each_node_spec _ _ _ EN) as (xs & A & ->). exists p, pv, xs. split; [reflexivity|]. split; [now apply xpath_evaluates|].
    split; [exact A | reflexivity].
Qed.

(** ** Attributes *)
(** An element with children has its computed attributes replaced by plain ones, which win over
    plain attributes of the same name; its other attributes stay. *)
Theorem C71_attributes t a x tl c ctx vs n' vs' :
  ~ is_template c -> kids_of c <> [] -> NoDup (map fst (attrs_of c)) ->
  (forall k v, In (k, v) (attrs_of c) -> forall name, k = tmpla ++ name -> ~ computed name) ->
  process (TN t a x tl [c]) ctx vs = Ok (n', vs') ->
  exists c', kids_of n' = [c'] /\
    (forall k, computed k -> dget streq (attrs_of c') k = None) /\
    (forall k, ~ computed k ->
       match dget streq (attrs_of c) (lit "{uri://nrsi.sil.org/template_attributes/0.1}" ++ k) with
       | Some q => exists v, evaluates vs ctx (Some q) v /\ dget streq (attrs_of c') k = Some (vstr v)
       | None => dget streq (attrs_of c') k = dget streq (attrs_of c) k
       end).
Proof.
  intros NT NK ND NN H. apply process_inv in H. destruct H as (x' & out & H & ->). cbn [kids_loop] in H.
  unfold M_Template.one_kid in H. apply tmpl_None in NT. rewrite NT in H. destruct (kids_of c) as [|c1 ck] eqn:EK; [congruence|].
  destruct (processattrib vs ctx (attrs_of c)) as [a'|] eqn:EA; cbn [bind] in H; [|discriminate].
  destruct (process c ctx vs) as [[c' w]|] eqn:EP; cbn [bind] in H; [|discriminate].
  injection H as <- <- <-. eexists. split; [reflexivity|]. cbn [attrs_of].
  change (lit "{uri://nrsi.sil.org/template_attributes/0.1}") with tmpla in *.
  unfold M_Template.processattrib in EA.
  assert (CK : forall k, computed k <-> strip_prefix tmpla k <> None).
  { intros k. unfold computed. fold tmpla. split.
    - intros (name & X). apply strip_prefix_Some in X. congruence.
    - intros X. destruct (strip_prefix tmpla k) as [r|] eqn:E; [|congruence]. exists r. now apply strip_prefix_Some. }
  assert (G : forall items b b', NoDup (map fst items) -> NoDup (dkeys b) ->
     (forall k v, In (k, v) items -> forall name, k = tmpla ++ name -> ~ computed name) ->
     attrib_loop C vstr xp vs ctx items b = Ok b' ->
     (forall k, computed k -> dget streq b' k = if dmem streq items k then None else dget streq b k) /\
     (forall k, ~ computed k -> match dget streq items (tmpla ++ k) with
       | Some q => exists v, xpath vs ctx (Some q) = Ok v /\ dget streq b' k = Some (vstr v)
       | None => dget streq b' k = dget streq b k end)).
  { clear. intros items. induction items as [|[k v] items IH]; intros b b' NDi NDb Hn H; cbn [attrib_loop] in H.
    - injection H as <-. split; reflexivity.
    - cbn [map fst] in NDi. inversion NDi as [|? ? N1 N2]; subst.
      assert (Hn' : forall k v, In (k, v) items -> forall name, k = tmpla ++ name -> ~ computed name)
        by (intros k1 v1 H1; apply (Hn k1 v1); now right).
      destruct (strip_prefix tmpla k) as [newk|] eqn:E.
      + destruct (xpath vs ctx (Some v)) as [nv|] eqn:EX; cbn [bind] in H; [|discriminate].
        apply strip_prefix_Some in E.
        assert (NC : ~ computed newk) by (apply (Hn k v (or_introl eq_refl) newk E)).
        assert (ND2 : NoDup (dkeys (dset streq b newk (vstr nv)))) by (now apply (dset_NoDup streq streq_spec)).
        apply IH in H; [|exact N2|now apply (ddel_NoDup streq)|exact Hn'].
        destruct H as [A B]. split.
        * intros k0 C0. rewrite A by exact C0. rewrite (dget_ddel streq streq_spec) by exact ND2.
          rewrite (dget_dset_other streq streq_spec) by congruence. unfold dmem. cbn [dget].
          destruct (streq k0 k); [now destruct (dget streq items k0)|]. reflexivity.
        * intros k0 C0. specialize (B k0 C0). cbn [dget]. destruct (streq_spec (tmpla ++ k0) k) as [X|X].
          -- assert (k0 = newk) by (rewrite E in X; now apply app_inv_head in X). subst k0.
             assert (NI : dget streq items (tmpla ++ newk) = None)
               by (rewrite X; apply (dget_None streq streq_spec); exact N1).
             rewrite NI in B. exists nv. split; [exact EX|]. rewrite B, (dget_ddel streq streq_spec) by exact ND2.
             destruct (streq_spec newk k) as [Y|_]; [|apply (dget_dset_same streq streq_spec)].
             exfalso. apply NC. exists newk. fold tmpla. congruence.
          -- destruct (dget streq items (tmpla ++ k0)) as [q|]; [exact B|]. rewrite B, (dget_ddel streq streq_spec) by exact ND2.
             destruct (streq_spec k0 k) as [Y|_]; [exfalso; apply C0; exists newk; fold tmpla; congruence|].
             apply (dget_dset_other streq streq_spec). congruence.
      + apply IH in H; [|exact N2|exact NDb|exact Hn']. destruct H as [A B]. split.
        * intros k0 C0. rewrite A by exact C0. unfold dmem. cbn [dget].
          destruct (streq_spec k0 k) as [->|_]; [|reflexivity]. exfalso. destruct C0 as (r & X). fold tmpla in X.
          apply strip_prefix_Some in X. congruence.
        * intros k0 C0. specialize (B k0 C0). cbn [dget]. destruct (streq_spec (tmpla ++ k0) k) as [X|X]; [|exact B].
          exfalso. symmetry in X. apply strip_prefix_Some in X. congruence. }
  destruct (G _ _ _ ND ND NN EA) as [A B]. split;
    [|intros k Ck; specialize (B k Ck); destruct (dget streq (attrs_of c) (tmpla ++ k)); [|exact B];
      destruct B as (v & B1 & B2); exists v; split; [now apply xpath_evaluates | exact B2]].
  intros k Ck. rewrite A by exact Ck. unfold dmem. destruct (dget streq (attrs_of c) k); reflexivity.
Qed.

(** ** One child after the other *)
(** What comes first is expanded first, and its variables hold for what follows. *)
Theorem C71_sequence t a x tl ks1 ks2 ctx vs n' vs' :
  process (TN t a x tl (ks1 ++ ks2)) ctx vs = Ok (n', vs') <->
  exists n1 vs1 n2, process (TN t a x tl ks1) ctx vs = Ok (n1, vs1) /\
    process (TN t a (text_of n1) tl ks2) ctx vs1 = Ok (n2, vs') /\
    n' = TN t a (text_of n2) tl (kids_of n1 ++ kids_of n2).
Proof.
  assert (A : kids_loop ctx (ks1 ++ ks2) x vs =
    do (to, vs1) <- kids_loop ctx ks1 x vs; do (to', vs2) <- kids_loop ctx ks2 (fst to) vs1; Ok (fst to', snd to ++ snd to', vs2)).
  { clear. revert x vs. induction ks1 as [|c ks1 IH]; intros x vs; cbn [app kids_loop].
    - cbn [bind fst snd app]. destruct (kids_loop ctx ks2 x vs) as [[[x' o] w]|]; reflexivity.
    - destruct (one_kid process c ctx vs x) as [[[x1 o1] w1]|]; cbn [bind fst snd]; [|reflexivity]. rewrite IH.
      destruct (kids_loop ctx ks1 x1 w1) as [[[x2 o2] w2]|]; cbn [bind fst snd]; [|reflexivity].
      destruct (kids_loop ctx ks2 x2 w2) as [[[x3 o3] w3]|]; cbn [bind fst snd]; [|reflexivity].
      now rewrite app_assoc. }
  rewrite !process_eq, A. destruct (kids_loop ctx ks1 x vs) as [[[x1 o1] w1]|e]; cbn [bind fst snd].
  - destruct (kids_loop ctx ks2 x1 w1) as [[[x2 o2] w2]|e] eqn:E2; cbn [bind fst snd].
    + split.
      * intros H. injection H as <- <-. do 3 eexists. split; [reflexivity|]. cbn [text_of kids_of]. rewrite process_eq, E2. cbn [bind fst snd].
        split; reflexivity.
      * intros (n1 & vs1 & n2 & H1 & H2 & ->). injection H1 as <- <-. cbn [text_of] in H2. rewrite process_eq, E2 in H2. cbn [bind fst snd] in H2.
        injection H2 as <- <-. reflexivity.
    + split; [discriminate|]. intros (n1 & vs1 & n2 & H1 & H2 & ->). injection H1 as <- <-. cbn [text_of] in H2.
      rewrite process_eq, E2 in H2. discriminate.
  - split; [discriminate|]. intros (n1 & vs1 & n2 & H1 & _). discriminate.
Qed.

(** A variable gets what its text evaluates to, or its default if that is empty; with fallback
    a variable that is set keeps its value. *)
Definition empty_value (v : value) : Prop := v = VStr C [] \/ v = VList C [].
Theorem C71_variable t a x tl c ctx vs n' vs' k :
  tag_of c = lit "{uri://nrsi.sil.org/template/0.1}variable" ->
  (forall k v, In (k, v) (attrs_of c) -> ~ computed k) ->
  dget streq (attrs_of c) (lit "{uri://nrsi.sil.org/template/0.1}name") = Some k ->
  process (TN t a x tl [c]) ctx vs = Ok (n', vs') ->
  n' = TN t a x tl [] /\
  (forall k', k' <> k -> dget streq vs' k' = dget streq vs k') /\
  ((dget streq (attrs_of c) (lit "{uri://nrsi.sil.org/template/0.1}fallback") <> None /\ dget streq vs k <> None
     /\ vs' = vs) \/
   (exists v, evaluates vs ctx (text_of c) v /\
     (dget streq (attrs_of c) (lit "{uri://nrsi.sil.org/template/0.1}fallback") = None \/ dget streq vs k = None) /\
     (~ empty_value v -> dget streq vs' k = Some v) /\
     (empty_value v -> dget streq vs' k = Some (VStr C
        match dget streq (attrs_of c) (lit "{uri://nrsi.sil.org/template/0.1}default") with Some s => s | None => [] end)))).
Proof.
  intros T NA HN H. apply process_inv in H. destruct H as (x' & out & H & ->). cbn [kids_loop] in H.
  unfold M_Template.one_kid in H.
  assert (T' : strip_prefix tmpl (tag_of c) = Some (lit "variable")) by (rewrite T; reflexivity). rewrite T' in H.
  change (streq (lit "variable") (lit "variable")) with true in H. cbv iota in H.
  unfold set_variable in H. rewrite processattrib_plain in H by exact NA. cbn [bind] in H.
  unfold attr in H. change (lit "{uri://nrsi.sil.org/template/0.1}name") with (tmpl ++ lit "name") in HN.
  change (lit "{uri://nrsi.sil.org/template/0.1}fallback") with (tmpl ++ lit "fallback").
  change (lit "{uri://nrsi.sil.org/template/0.1}default") with (tmpl ++ lit "default").
  rewrite HN in H. cbn [bind] in H. unfold dmem in H.
  destruct (_ || _)%bool eqn:EC in H.
  - destruct (xpath vs ctx (text_of c)) as [v|] eqn:EX; cbn [bind fst snd] in H; [|discriminate].
    injection H as <- <- <-. split; [reflexivity|]. split.
    + intros k' NE. now apply (dget_dset_other streq streq_spec).
    + right. exists v. split; [now apply xpath_evaluates|]. split.
      { apply Bool.orb_true_iff in EC. destruct EC as [EC|EC]; [left|right].
        - destruct (dget streq (attrs_of c) (tmpl ++ lit "fallback")); [discriminate|reflexivity].
        - destruct (dget streq vs k); [discriminate|reflexivity]. }
      unfold empty_value. split; intros Hv; rewrite (dget_dset_same streq streq_spec).
      * f_equal. destruct v as [[|ch s]|nd|[|i l]]; try reflexivity; exfalso; apply Hv; [now left | now right].
      * destruct Hv as [->| ->]; reflexivity.
  - cbn [bind fst snd] in H. injection H as <- <- <-. split; [reflexivity|]. split; [reflexivity|]. left.
    apply Bool.orb_false_iff in EC. destruct EC as [E1 E2].
    destruct (dget streq (attrs_of c) (tmpl ++ lit "fallback")); [|discriminate].
    destruct (dget streq vs k); [|discriminate]. split; [discriminate|]. split; [discriminate|reflexivity].
Qed.

(** A value becomes the text of the element it stands in, in place of the text there. *)
Theorem C71_value t a x tl c ctx vs n' vs' :
  tag_of c = lit "{uri://nrsi.sil.org/template/0.1}value" ->
  (forall k v, In (k, v) (attrs_of c) -> ~ computed k) ->
  process (TN t a x tl [c]) ctx vs = Ok (n', vs') ->
  exists path v x', dget streq (attrs_of c) (lit "{uri://nrsi.sil.org/template/0.1}path") = Some path /\
    evaluates vs ctx (Some path) v /\
    match members v with
    | [] => x' = Some []
    | VStr _ s :: _ => x' = Some s
    | VNode _ nd :: _ => x' = ctext nd
    | VList _ _ :: _ => False
    end /\ n' = TN t a x' tl [] /\ vs' = vs.
Proof.
  intros T NA H. apply process_inv in H. destruct H as (x' & out & H & ->). cbn [kids_loop] in H.
  unfold M_Template.one_kid in H.
  assert (T' : strip_prefix tmpl (tag_of c) = Some (lit "value")) by (rewrite T; reflexivity). rewrite T' in H.
  change (streq (lit "value") (lit "variable")) with false in H. change (streq (lit "value") (lit "value")) with true in H. cbv iota in H.
  unfold get_value in H. rewrite processattrib_plain in H by exact NA. cbn [bind] in H. unfold attr in H.
  change (lit "{uri://nrsi.sil.org/template/0.1}path") with (tmpl ++ lit "path").
  destruct (dget streq (attrs_of c) (tmpl ++ lit "path")) as [p|]; cbn [bind] in H; [|discriminate].
  destruct (xpath vs ctx (Some p)) as [v|] eqn:EX; cbn [bind] in H; [|discriminate].
  exists p, v, x'. split; [reflexivity|]. split; [now apply xpath_evaluates|].
  assert (K : x' = asstr C ctext v /\ out = [] /\ vs' = vs).
  { destruct (asstr C ctext v) as [s|].
    - cbn [bind fst snd] in H. injection H as <- <- <-. repeat split.
    - destruct (dmem streq (attrs_of c) (tmpl ++ lit "cdata")); cbn [bind fst snd] in H; [discriminate|].
      injection H as <- <- <-. repeat split. }
  destruct K as (-> & -> & ->). split; [|split; reflexivity].
  destruct v as [s|nd|[|[s|nd] l]]; reflexivity.
Qed.

(** ** Variables *)
(** the names that expanding an element may set: its variables, and its loop variables, outside
    of contexts and loops *)
Inductive sets : tn -> pystr -> Prop :=
| sets_variable n c k v : In c (kids_of n) -> tag_of c = lit "{uri://nrsi.sil.org/template/0.1}variable" ->
    dget streq v (lit "{uri://nrsi.sil.org/template/0.1}name") = Some k -> v = attrs_of c -> sets n k
| sets_computed n c k : In c (kids_of n) -> tag_of c = lit "{uri://nrsi.sil.org/template/0.1}variable" ->
    In (tmpla ++ lit "{uri://nrsi.sil.org/template/0.1}name") (map fst (attrs_of c)) -> sets n k
| sets_loop n c k : In c (kids_of n) -> tag_of c = lit "{uri://nrsi.sil.org/template/0.1}foreach" ->
    In (lit "{uri://nrsi.sil.org/template_attributes/0.1}" ++ k) (map fst (attrs_of c)) -> sets n k
| sets_below n c k : In c (kids_of n) -> ~ is_template c -> sets c k -> sets n k.

Lemma ddel_other (a : list (pystr * pystr)) k k2 : k2 <> k -> dget streq (ddel streq a k) k2 = dget streq a k2.
Proof.
  intros NE. induction a as [|[k' v'] a IH]; [reflexivity|]. cbn [ddel dget].
  destruct (streq_spec k k') as [<-|N1].
  - destruct (streq_spec k2 k) as [E|_]; [congruence|reflexivity].
  - cbn [dget]. now rewrite IH.
Qed.
Lemma attrib_loop_other vs ctx key : strip_prefix tmpla key = None -> forall items b b',
  ~ In (tmpla ++ key) (map fst items) -> attrib_loop C vstr xp vs ctx items b = Ok b' -> dget streq b' key = dget streq b key.
Proof.
  intros NP. induction items as [|[k v] items IH]; intros b b' NI H; cbn [attrib_loop] in H.
  - now injection H as <-.
  - cbn [map fst] in NI. destruct (strip_prefix tmpla k) as [newk|] eqn:E.
    + destruct (xpath vs ctx (Some v)) as [nv|]; cbn [bind] in H; [|discriminate].
      apply IH in H; [|intros X; apply NI; now right]. rewrite H, ddel_other by congruence.
      apply (dget_dset_other streq streq_spec). intros ->. apply strip_prefix_Some in E. apply NI. now left.
    + apply IH in H; [exact H|]. intros X; apply NI; now right.
Qed.
Lemma dupdate_other : forall (e d : vars) k, ~ In k (map fst e) -> dget streq (dupdate C d e) k = dget streq d k.
Proof.
  unfold dupdate. induction e as [|[k0 v0] e IH]; intros d k NI; [reflexivity|]. cbn [fold_left fst snd map] in *.
  rewrite IH by (intros X; apply NI; now right). apply (dget_dset_other streq streq_spec). intros ->. apply NI. now left.
Qed.
Lemma asdict_keys it k : In k (map fst (it_asdict C vstr it)) -> In k (map fst (it_keys C it)).
Proof.
  unfold it_asdict. intros Hx. apply in_map_iff in Hx. destruct Hx as ((a, b) & <- & Hx). apply in_flat_map in Hx.
  destruct Hx as ((k1, i1) & Hk & Hx). apply in_map_iff. exists (k1, i1). split; [|exact Hk]. cbn [fst snd] in *.
  destruct (nth_error (it_values C it) i1) as [l|]; [|destruct Hx].
  destruct (nth_error l _); [|destruct Hx]. destruct Hx as [X|[]]. now injection X.
Qed.
Lemma it_rest_keys : forall fuel it d, In d (it_rest C vstr fuel it) -> forall k, In k (map fst d) -> In k (map fst (it_keys C it)).
Proof.
  induction fuel as [|fuel IH]; intros it d Hd k Hk; cbn [it_rest] in Hd; [destruct Hd|].
  destruct (it_raise C (it_values C it) (it_indices C it)) as [idx|]; [|destruct Hd]. destruct Hd as [<-|Hd].
  - apply asdict_keys in Hk. exact Hk.
  - apply (IH _ _ Hd) in Hk. exact Hk.
Qed.
Lemma loop_vars_keys vs ctx : forall items it it', loop_vars C xp vs ctx items it = Ok it' ->
  forall k, In k (map fst (it_keys C it')) -> In k (map fst (it_keys C it)) \/ In (tmpla ++ k) (map fst items).
Proof.
  induction items as [|[k0 v] items IH]; intros it it' H k Hk; cbn [loop_vars] in H.
  - injection H as <-. now left.
  - cbn [map fst]. destruct (strip_prefix tmpla k0) as [newk|] eqn:E.
    + destruct (xpath vs ctx (Some v)) as [nv|]; cbn [bind] in H; [|discriminate].
      destruct (IH _ _ H k Hk) as [X|X]; [|right; now right].
      unfold it_set in X. cbn [it_keys] in X. apply (in_dkeys_dset streq streq_spec) in X.
      destruct X as [->|X]; [right; left; now apply strip_prefix_Some | now left].
    + destruct (IH _ _ H k Hk) as [X|X]; [now left | right; now right].
Qed.
Lemma each_turn_vars (body : vars -> value -> res (tn * vars)) nodes upper k : forall turns vs out vs',
  each_turn C body nodes upper vs turns = Ok (out, vs') ->
  (forall d, In d turns -> ~ In k (map fst d)) -> dget streq vs k = dget streq upper k ->
  dget streq vs' k = dget streq upper k.
Proof.
  induction turns as [|t turns IH]; intros vs out vs' H HN HE; cbn [each_turn] in H.
  - now injection H as <- <-.
  - destruct (nodes (dupdate C upper t)) as [p|e]; cbn [bind] in H; [|discriminate].
    destruct (each_node C (body (dupdate C upper t)) (path_nodes C p)) as [here|e] eqn:E; cbn [bind] in H; [|discriminate].
    destruct (each_turn C body nodes upper (dupdate C upper t) turns) as [[rest vs2]|e] eqn:E2; cbn [bind] in H; [|discriminate].
    injection H as <- <-. apply (IH _ _ _ E2); [intros d Hd; apply HN; now right|].
    apply dupdate_other. apply HN. now left.
Qed.

(** Every other variable keeps its value: in particular those set in contexts and loops. *)
Theorem C71_variables_kept n : forall ctx vs n' vs' k, process n ctx vs = Ok (n', vs') ->
  ~ sets n k -> dget streq vs' k = dget streq vs k.
Proof.
  induction n as [t a x tl ks IH] using tn_ind'. intros ctx vs n' vs' k H NS.
  apply process_inv in H. destruct H as (x' & out & H & ->).
  assert (G : forall l, (forall c, In c l -> In c ks) -> forall x vs x' out vs', kids_loop ctx l x vs = Ok (x', out, vs') ->
     dget streq vs' k = dget streq vs k); [|eapply G; [|exact H]; auto].
  clear vs x' out vs' H. induction l as [|c l IHl]; intros Hl x0 vs x' out vs' H; cbn [kids_loop] in H.
  { now injection H as <- <- <-. }
  destruct (one_kid process c ctx vs x0) as [[[x1 o1] vs1]|e] eqn:E; cbn [bind] in H; [|discriminate].
  destruct (kids_loop ctx l (fst (x1, o1)) vs1) as [[[x2 o2] vs2]|e] eqn:E2; cbn [bind] in H; [|discriminate].
  injection H as <- <- <-. rewrite (IHl (fun c0 H0 => Hl c0 (or_intror H0)) _ _ _ _ _ E2). clear E2 IHl.
  assert (Hc : In c ks) by (apply Hl; now left). clear Hl. rewrite Forall_forall in IH. specialize (IH c Hc).
  unfold M_Template.one_kid in E. destruct (strip_prefix tmpl (tag_of c)) as [nm|] eqn:ET.
  - apply strip_prefix_Some in ET. destruct (streq_spec nm (lit "variable")) as [->|_].
    { destruct (set_variable C vstr xp vs ctx (attrs_of c) (text_of c)) as [w|] eqn:EV; cbn [bind] in E; [|discriminate].
      injection E as <- <- <-. unfold set_variable in EV.
      destruct (processattrib vs ctx (attrs_of c)) as [a'|] eqn:EA; cbn [bind] in EV; [|discriminate].
      unfold attr in EV. destruct (dget streq a' (tmpl ++ lit "name")) as [k0|] eqn:EN; cbn [bind] in EV; [|discriminate].
      destruct (_ || _)%bool in EV; [|injection EV as <-; reflexivity].
      destruct (xpath vs ctx (text_of c)) as [v|]; cbn [bind] in EV; [|discriminate]. injection EV as <-.
      apply (dget_dset_other streq streq_spec). intros ->. apply NS.
      destruct (in_dec (list_eq_dec N.eq_dec) (tmpla ++ tmpl ++ lit "name") (map fst (attrs_of c))) as [HI|HI].
      - eapply sets_computed; [exact Hc | exact ET | exact HI].
      - unfold M_Template.processattrib in EA. apply (attrib_loop_other vs ctx (tmpl ++ lit "name") eq_refl) in EA; [|exact HI].
        eapply sets_variable; [exact Hc | exact ET | | reflexivity].
        change (lit "{uri://nrsi.sil.org/template/0.1}name") with (tmpl ++ lit "name"). congruence. }
    destruct (streq nm (lit "value")).
    { destruct (get_value C ctext vstr xp vs ctx (attrs_of c)); cbn [bind] in E; [|discriminate]. now injection E as <- <- <-. }
    destruct (streq nm (lit "context")).
    { destruct (processattrib vs ctx (attrs_of c)) as [a'|]; cbn [bind] in E; [|discriminate].
      destruct (attr a' (tmpl ++ lit "path")) as [p|]; cbn [bind] in E; [|discriminate].
      destruct (xpath vs ctx (Some p)) as [ctx'|]; cbn [bind] in E; [|discriminate].
      destruct (process c ctx' vs) as [[c' w]|] eqn:EP; cbn [bind] in E; [|discriminate]. now injection E as <- <- <-. }
    destruct (streq_spec nm (lit "foreach")) as [->|_].
    { destruct (loop_vars C xp vs ctx (attrs_of c) (it_empty C)) as [it|] eqn:EL; cbn [bind] in E; [|discriminate].
      match type of E with bind ?e _ = _ => destruct e as [[out w]|] eqn:EE end; cbn [bind] in E; [|discriminate].
      injection E as <- <- <-. apply (each_turn_vars _ _ _ k _ _ _ _ EE); [|reflexivity].
      intros d Hd Hk. assert (Hk' : In k (map fst (it_keys C it))).
      { unfold it_dicts in Hd. destruct Hd as [<-|Hd]; [now apply asdict_keys | eapply it_rest_keys; eassumption]. }
      destruct (loop_vars_keys _ _ _ _ _ EL k Hk') as [[]|HI]. apply NS. eapply sets_loop; [exact Hc | exact ET | exact HI]. }
    now injection E as <- <- <-.
  - assert (NT : ~ is_template c) by (apply tmpl_None; exact ET).
    destruct (kids_of c) as [|c1 ck] eqn:EK; [now injection E as <- <- <-|].
    destruct (processattrib vs ctx (attrs_of c)) as [a'|]; cbn [bind] in E; [|discriminate].
    destruct (process c ctx vs) as [[c' w]|] eqn:EP; cbn [bind] in E; [|discriminate].
    injection E as <- <- <-. apply (IH _ _ _ _ _ EP). intros S. apply NS. eapply sets_below; eassumption.
Qed.

(** ** Failures *)
(** Whatever goes wrong in a path, the exception is one of these, not the XPathEvalError with
    the path and the line that the code means to raise. *)
Theorem C71_exceptions n : forall ctx vs e, process n ctx vs = Raise e ->
  e = AttributeError \/ e = TypeError \/ e = KeyError.
Proof.
  assert (X : forall vs ctx p e, xpath vs ctx p = Raise e -> e = AttributeError \/ e = TypeError \/ e = KeyError).
  { intros vs ctx p e. unfold M_Template.xpath. destruct (xp vs ctx p) as [[s|[|i [|j l]]|]|e']; intros H; try discriminate;
    injection H as <-; auto. }
  assert (A : forall a k e, attr a k = Raise e -> e = AttributeError \/ e = TypeError \/ e = KeyError).
  { intros a k e. unfold attr. destruct (dget streq a k); intros H; [discriminate|]. injection H as <-. auto. }
  assert (PA : forall vs ctx items a e, attrib_loop C vstr xp vs ctx items a = Raise e -> e = AttributeError \/ e = TypeError \/ e = KeyError).
  { intros vs ctx. induction items as [|[k v] items IHi]; intros a e H; cbn [attrib_loop] in H; [discriminate|].
    destruct (strip_prefix tmpla k); [|eapply IHi; exact H].
    destruct (xpath vs ctx (Some v)) eqn:EX; cbn [bind] in H; [eapply IHi; exact H|]. injection H as <-. eapply X; exact EX. }
  induction n as [t a x tl ks IH] using tn_ind'. intros ctx vs e H. rewrite process_eq in H.
  destruct (kids_loop ctx ks x vs) as [[[x' out] w]|e'] eqn:E; cbn [bind] in H; [discriminate|]. injection H as <-.
  revert x vs e' E. induction ks as [|c ks IHk]; intros x vs e H; cbn [kids_loop] in H; [discriminate|].
  inversion IH as [|? ? I1 I2]; subst.
  destruct (one_kid process c ctx vs x) as [[[x1 o1] vs1]|e1] eqn:E; cbn [bind] in H.
  { destruct (kids_loop ctx ks (fst (x1, o1)) vs1) as [[[x2 o2] vs2]|e2] eqn:E2; cbn [bind] in H; [discriminate|].
    injection H as <-. eapply IHk; [exact I2 | exact E2]. }
  injection H as <-. clear IHk I2. unfold M_Template.one_kid in E.
  destruct (strip_prefix tmpl (tag_of c)) as [nm|].
  - destruct (streq nm (lit "variable")).
    { destruct (set_variable C vstr xp vs ctx (attrs_of c) (text_of c)) as [w|e0] eqn:EV; cbn [bind] in E; [discriminate|].
      injection E as <-. unfold set_variable in EV.
      destruct (processattrib vs ctx (attrs_of c)) as [a'|] eqn:EA; cbn [bind] in EV; [|injection EV as <-; eapply PA; exact EA].
      destruct (attr a' (tmpl ++ lit "name")) as [k0|] eqn:EN; cbn [bind] in EV; [|injection EV as <-; eapply A; exact EN].
      destruct (_ || _)%bool in EV; [|discriminate].
      destruct (xpath vs ctx (text_of c)) as [v|] eqn:EX; cbn [bind] in EV; [discriminate|]. injection EV as <-. eapply X; exact EX. }
    destruct (streq nm (lit "value")).
    { destruct (get_value C ctext vstr xp vs ctx (attrs_of c)) as [w|e0] eqn:EV; cbn [bind] in E; [discriminate|].
      injection E as <-. unfold get_value in EV.
      destruct (processattrib vs ctx (attrs_of c)) as [a'|] eqn:EA; cbn [bind] in EV; [|injection EV as <-; eapply PA; exact EA].
      destruct (attr a' (tmpl ++ lit "path")) as [p|] eqn:EN; cbn [bind] in EV; [|injection EV as <-; eapply A; exact EN].
      destruct (xpath vs ctx (Some p)) as [v|] eqn:EX; cbn [bind] in EV; [|injection EV as <-; eapply X; exact EX].
      destruct (asstr C ctext v); [discriminate|]. destruct (dmem streq a' (tmpl ++ lit "cdata")); [|discriminate]. injection EV as <-. auto. }
    destruct (streq nm (lit "context")).
    { destruct (processattrib vs ctx (attrs_of c)) as [a'|] eqn:EA; cbn [bind] in E; [|injection E as <-; eapply PA; exact EA].
      destruct (attr a' (tmpl ++ lit "path")) as [p|] eqn:EN; cbn [bind] in E; [|injection E as <-; eapply A; exact EN].
      destruct (xpath vs ctx (Some p)) as [ctx'|] eqn:EX; cbn [bind] in E; [|injection E as <-; eapply X; exact EX].
      destruct (process c ctx' vs) as [[c' w]|] eqn:EP; cbn [bind] in E; [discriminate|]. injection E as <-. eapply I1; exact EP. }
    destruct (streq nm (lit "foreach")).
    { destruct (loop_vars C xp vs ctx (attrs_of c) (it_empty C)) as [it|] eqn:EL; cbn [bind] in E.
      - match type of E with bind ?e _ = _ => destruct e as [[out w]|e0] eqn:EE end; cbn [bind] in E; [discriminate|].
        injection E as <-. clear EL. revert EE. generalize vs at 2. induction (it_dicts C vstr it) as [|d ds IHd]; intros vs0 EE; cbn [each_turn] in EE; [discriminate|].
        destruct (attr (attrs_of c) (tmpl ++ lit "path")) as [p|] eqn:EN; cbn [bind] in EE; [|injection EE as <-; eapply A; exact EN].
        destruct (xpath (dupdate C vs d) ctx (Some p)) as [v|] eqn:EX; cbn [bind] in EE; [|injection EE as <-; eapply X; exact EX].
        destruct (each_node C _ (path_nodes C v)) as [here|e2] eqn:E2; cbn [bind] in EE.
        + destruct (each_turn C _ _ vs (dupdate C vs d) ds) as [[rest w2]|] eqn:E3; cbn [bind] in EE; [discriminate|].
          injection EE as <-. eapply IHd. exact E3.
        + injection EE as <-. revert E2. induction (path_nodes C v) as [|n ns IHn]; intros E2; cbn [each_node] in E2; [discriminate|].
          destruct (process c n (dupdate C vs d)) as [y|] eqn:EP; cbn [bind] in E2; [|injection E2 as <-; eapply I1; exact EP].
          destruct (each_node C _ ns) as [r|]; cbn [bind] in E2; [discriminate|]. injection E2 as <-. now apply IHn.
      - injection E as <-. revert EL. generalize (it_empty C). induction (attrs_of c) as [|[k v] items IHi]; intros it0 EL; cbn [loop_vars] in EL; [discriminate|].
        destruct (strip_prefix tmpla k); [|eapply IHi; exact EL].
        destruct (xpath vs ctx (Some v)) eqn:EX; cbn [bind] in EL; [eapply IHi; exact EL|]. injection EL as <-. eapply X; exact EX. }
    discriminate.
  - destruct (kids_of c); [discriminate|].
    destruct (processattrib vs ctx (attrs_of c)) as [a'|] eqn:EA; cbn [bind] in E; [|injection E as <-; eapply PA; exact EA].
    destruct (process c ctx vs) as [[c' w]|] eqn:EP; cbn [bind] in E; [discriminate|]. injection E as <-. eapply I1; exact EP.
Qed.
End Template.

(** ** Concrete cases *)
Definition ctext0 (c : bool) : option pystr := Some (if c then lit "first" else lit "second").
Definition vstr0 (v : value bool) : pystr :=
  match v with VStr _ s => s | VNode _ c => lit "<Element>" | VList _ l => lit "[..]" end.
Definition xp0 (vs : list (pystr * value bool)) (ctx : value bool) (p : option pystr) : res (raw bool) :=
  match p with
  | None => Raise ValueError
  | Some p =>
      if streq p (lit "one") then Ok (RStr bool (lit "1"))
      else if streq p (lit "items") then Ok (RList bool [INode bool true; INode bool false])
      else if streq p (lit "words") then Ok (RList bool [IStr bool (lit "a"); IStr bool (lit "b")])
      else if streq p (lit ".") then match ctx with VNode _ c => Ok (RList bool [INode bool c]) | _ => Raise ValueError end
      else if streq p (lit "$x") then match dget streq vs (lit "x") with Some (VStr _ s) => Ok (RStr bool s) | _ => Raise ValueError end
      else if streq p (lit "count") then Ok (RNum bool)
      else Raise ValueError
  end.
Definition el (t : String.string) (a : list (pystr * pystr)) (ks : list tn) : tn := TN (lit t) a None None ks.
Definition tel (t : String.string) (a : list (pystr * pystr)) (text tail : option pystr) (ks : list tn) : tn :=
  TN (tmpl ++ lit t) a text tail ks.
Definition tat (k : String.string) (v : String.string) : pystr * pystr := (tmpl ++ lit k, lit v).
Definition cat (k : String.string) (v : String.string) : pystr * pystr := (tmpla ++ lit k, lit v).
Notation process0 := (process bool ctext0 vstr0 xp0).

Definition loop0 : tn := tel "foreach" [tat "path" "items"; cat "v" "one"] None None [el "p" [] [tel "value" [tat "path" "."] None None []]].
Definition doc0 : tn := el "r" [] [tel "variable" [tat "name" "x"] (Some (lit "one")) None []; loop0;
  el "q" [cat "y" "$x"; (lit "y", lit "old"); (lit "k", lit "kept")] [el "z" [] []]].
Example C71_ex : process0 doc0 (VStr bool []) [] = Ok
  (el "r" [] [TN (lit "p") [] (Some (lit "first")) None []; TN (lit "p") [] (Some (lit "second")) None [];
     el "q" [(lit "y", lit "1"); (lit "k", lit "kept")] [el "z" [] []]],
   [(lit "x", VStr bool (lit "1")); (lit "v", VStr bool (lit "1"))]).
Proof. vm_compute. reflexivity. Qed.
Example C71_ex_foreach : tag_of loop0 = lit "{uri://nrsi.sil.org/template/0.1}foreach" /\ NoDup (map fst (attrs_of loop0)) /\
  exists n' vs', process0 (el "r" [] [loop0]) (VStr bool []) [] = Ok (n', vs').
Proof.
  split; [reflexivity|]. split; [|do 2 eexists; vm_compute; reflexivity].
  constructor; [intros [H|[]]; discriminate|]. constructor; [intros []|constructor].
Qed.
Example C71_ex_context : exists n' vs', process0 (el "r" [] [tel "context" [tat "path" "one"] None None [el "p" [] [el "q" [] []]]]) (VStr bool []) []
  = Ok (n', vs') /\ length (kids_of n') = 1.
Proof. do 2 eexists. split; [vm_compute; reflexivity | reflexivity]. Qed.
Example C71_ex_variables_kept : sets (el "r" [] [loop0]) (lit "v") /\ ~ sets (el "r" [] [loop0]) (lit "x").
Proof.
  split.
  - eapply sets_loop; [now left | reflexivity|]. cbn [attrs_of loop0 tel map fst cat]. right. left. reflexivity.
  - intros H. inversion H as [n c k v Hc T|n c k Hc T|n c k Hc T HI|n c k Hc NT HS]; subst;
      (destruct Hc as [<-|[]]); try discriminate T.
    + cbn [attrs_of loop0 tel map fst cat tat] in HI. destruct HI as [E|[E|[]]]; discriminate E.
    + apply NT. exists (lit "foreach"). reflexivity.
Qed.
Example C71_ex_plain : below (fun c => ~ is_template c /\ forall k v, In (k, v) (attrs_of c) -> ~ computed k)
  (el "r" [] [el "q" [(lit "y", lit "1")] []]).
Proof.
  constructor. intros c [<-|[]]. split; [split|constructor; intros c []].
  - intros (nm & E). discriminate E.
  - intros k v [E|[]] (nm & X). injection E as <- <-. discriminate X.
Qed.

(** Not all computed attributes are computed: an element without children keeps them as they are. *)
Theorem C71_leaf_attributes_refuted : ~ (forall t a x tl ks ctx vs n' vs',
  process0 (TN t a x tl ks) ctx vs = Ok (n', vs') ->
  below (fun c => forall k v, In (k, v) (attrs_of c) -> ~ computed k) n').
Proof.
  intros H. specialize (H (lit "r") [] None None [el "p" [cat "y" "one"] []] (VStr bool []) [] _ _ eq_refl).
  inversion H as [? K]; subst. destruct (K _ (or_introl eq_refl)) as [A _]. apply (A _ _ (or_introl eq_refl)).
  exists (lit "y"). reflexivity.
Qed.

(** Text behind an element of the template language is lost. *)
Theorem C71_text_behind_refuted : ~ (forall t ks ctx vs n' vs' s,
  process0 (TN t [] None None ks) ctx vs = Ok (n', vs') ->
  (exists c, In c ks /\ tail_of c = Some s) ->
  text_of n' = Some s \/ exists c, In c (kids_of n') /\ tail_of c = Some s).
Proof.
  intros H. specialize (H (lit "r") [tel "variable" [tat "name" "x"] (Some (lit "one")) (Some (lit "behind")) []]
    (VStr bool []) [] _ _ (lit "behind") eq_refl).
  destruct H as [E|(c & [] & _)].
  - eexists. split; [now left | reflexivity].
  - discriminate E.
Qed.

(** A loop variable whose path selects several strings does not take their values in turn: the
    loop runs once, with the text of the list. *)
Theorem C71_loop_values_refuted : ~ (forall c ctx vs n' vs' q l,
  tag_of c = lit "{uri://nrsi.sil.org/template/0.1}foreach" ->
  In (lit "{uri://nrsi.sil.org/template_attributes/0.1}v", q) (attrs_of c) ->
  xpath bool xp0 vs ctx (Some q) = Ok (VList bool l) -> length (kids_of c) = 1 ->
  process0 (TN (lit "r") [] None None [c]) ctx vs = Ok (n', vs') -> length (kids_of n') >= length l).
Proof.
  intros H. specialize (H (tel "foreach" [tat "path" "one"; cat "v" "words"] None None [el "p" [] []])
    (VStr bool []) [] _ _ (lit "words") [IStr bool (lit "a"); IStr bool (lit "b")] eq_refl (or_intror (or_introl eq_refl)) eq_refl eq_refl eq_refl).
  vm_compute in H. lia.
Qed.

(** A loop variable is not undone behind the loop. *)
Theorem C71_loop_scope_refuted : ~ (forall c ctx vs n' vs' k,
  tag_of c = lit "{uri://nrsi.sil.org/template/0.1}foreach" ->
  process0 (TN (lit "r") [] None None [c]) ctx vs = Ok (n', vs') -> dget streq vs' k = dget streq vs k).
Proof.
  intros H. specialize (H loop0 (VStr bool []) [(lit "v", VStr bool (lit "before"))] _ _ (lit "v") eq_refl eq_refl).
  discriminate H.
Qed.

(** A path whose value is a number cannot be used. *)
Theorem C71_number_raises C ctext vstr xp t a x tl c ks ctx vs path :
  tag_of c = lit "{uri://nrsi.sil.org/template/0.1}value" ->
  (forall k v, In (k, v) (attrs_of c) -> ~ computed k) ->
  dget streq (attrs_of c) (lit "{uri://nrsi.sil.org/template/0.1}path") = Some path ->
  xp vs ctx (Some path) = Ok (RNum C) ->
  process C ctext vstr xp (TN t a x tl (c :: ks)) ctx vs = Raise TypeError.
Proof.
  intros T NA HP HX. rewrite process_eq. cbn [kids_loop]. unfold one_kid.
  assert (T' : strip_prefix tmpl (tag_of c) = Some (lit "value")) by (rewrite T; reflexivity). rewrite T'.
  change (streq (lit "value") (lit "variable")) with false. change (streq (lit "value") (lit "value")) with true. cbv iota.
  unfold get_value. rewrite processattrib_plain by exact NA. cbn [bind]. unfold attr.
  change (lit "{uri://nrsi.sil.org/template/0.1}path") with (tmpl ++ lit "path") in HP. rewrite HP. cbn [bind].
  unfold xpath. rewrite HX. reflexivity.
Qed.
Example C71_ex_number : process0 (el "r" [] [tel "value" [tat "path" "count"] None None []]) (VStr bool []) [] = Raise TypeError.
Proof. reflexivity. Qed.
