(** C36 and C37: the three way merge. *)
From Coq Require Import String Permutation.
From Verif Require Import Py PyFacts M_LdmlBase M_Serialize M_Normalise M_Drafts T_Drafts T_Promote T_AddNode M_Merge T_Overlay T_Difference M_Merge3.
Local Open Scope list_scope.
Local Open Scope nat_scope.

(** * Specification *)

(** the content hash determines the key hash, in the way [keyof] *)
Definition hash_keyed (keyof : Z -> Z) : lnode -> Prop := everywhere (fun x => lah x = keyof (lch x)).

(** three way merge of a value that may be missing: a side that has not changed gives way; if
    both have changed, this side wins if both have a value, and otherwise the other side *)
Definition merged_value (t o b r : option pystr) : Prop :=
  (t = b -> r = o) /\ (o = b -> r = t) /\
  (t <> b -> o <> b -> r = match t, o with Some _, Some _ => t | _, _ => o end).

(** what stands at a key, given what this document, the other and the base have there, when
    drafts are not in use; [m3] is the merge of three elements *)
Inductive outcome (winner_other : bool) (m3 : lnode -> lnode -> lnode -> lnode -> Prop)
  : option lnode -> option lnode -> option lnode -> option lnode -> Prop :=
| both_same t o b : lch o = lch t -> outcome winner_other m3 (Some t) (Some o) b (Some t)
| other_changed t o b : lch o <> lch t -> lch b = lch t ->
    outcome winner_other m3 (Some t) (Some o) (Some b) (Some o)
| this_changed t o b : lch o <> lch t -> lch b = lch o ->
    outcome winner_other m3 (Some t) (Some o) (Some b) (Some t)
| all_differ t o b r : lch o <> lch t -> lch b <> lch t -> lch b <> lch o -> m3 t o b r ->
    outcome winner_other m3 (Some t) (Some o) (Some b) (Some r)
| both_added t o : lch o <> lch t -> outcome winner_other m3 (Some t) (Some o) None (Some t)
| this_added t : outcome winner_other m3 (Some t) None None (Some t)
| other_removed t b : lch b = lch t \/ winner_other = true ->
    outcome winner_other m3 (Some t) None (Some b) None
| other_removed_changed t b : lch b <> lch t -> winner_other = false ->
    outcome winner_other m3 (Some t) None (Some b) (Some t)
| other_added o : outcome winner_other m3 None (Some o) None (Some (set_alts o None))
| this_removed o b : lch b = lch o \/ winner_other = true ->
    outcome winner_other m3 None (Some o) (Some b) None
| this_removed_changed o b : lch b <> lch o -> winner_other = false ->
    outcome winner_other m3 None (Some o) (Some b) (Some (set_alts o None))
| absent b : outcome winner_other m3 None None b None.

(** * Alignment *)
Definition rm (k : Z) (l : list lnode) : list lnode := filter (fun y => negb (Z.eqb (lah y) k)) l.
Definition nodup (l : list lnode) : Prop := NoDup (map lah l).

Lemma rm_id k l : find_key k l = None -> rm k l = l.
Proof.
  rewrite find_key_none. induction l as [|x l IH]; intro H; [reflexivity|]. cbn [rm filter map] in *.
  destruct (Z.eqb_spec (lah x) k) as [E|N]; [exfalso; apply H; now left|]. cbn [negb]. f_equal. apply IH.
  intro Hl. apply H. now right.
Qed.
Lemma nodup_filter f l : nodup l -> nodup (filter f l).
Proof.
  unfold nodup. induction l as [|x l IH]; intro H; [constructor|]. cbn [map filter] in *. inversion H as [|? ? N1 N2]; subst.
  destruct (f x); [|auto]. cbn [map]. constructor; [|auto]. intro Hx. apply N1.
  apply in_map_iff in Hx as (y & <- & Hy). apply filter_In in Hy as [Hy _]. now apply in_map.
Qed.
Lemma find_key_filter k f l : nodup l ->
  find_key k (filter f l) = match find_key k l with Some x => if f x then Some x else None | None => None end.
Proof.
  unfold nodup. induction l as [|x l IH]; intro H; [reflexivity|]. cbn [map filter] in *. inversion H as [|? ? N1 N2]; subst.
  assert (find_key k (x :: l) = if Z.eqb (lah x) k then Some x else find_key k l) as -> by reflexivity.
  destruct (f x) eqn:Ef.
  - assert (find_key k (x :: filter f l) = if Z.eqb (lah x) k then Some x else find_key k (filter f l)) as -> by reflexivity.
    destruct (Z.eqb (lah x) k); [now rewrite Ef|now apply IH].
  - rewrite IH by assumption. destruct (Z.eqb_spec (lah x) k) as [<-|]; [|reflexivity].
    apply find_key_none in N1. now rewrite N1, Ef.
Qed.
Lemma take_key_spec k l : nodup l ->
  take_key k l = match find_key k l with Some x => Some (x, rm k l) | None => None end.
Proof.
  unfold nodup. induction l as [|x l IH]; intro H; [reflexivity|]. cbn [map take_key] in *. inversion H as [|? ? N1 N2]; subst.
  rewrite IH by assumption.
  assert (find_key k (x :: l) = if Z.eqb (lah x) k then Some x else find_key k l) as -> by reflexivity.
  cbn [rm filter]. destruct (Z.eqb_spec (lah x) k) as [<-|N]; cbn [negb].
  - apply find_key_none in N1. rewrite N1. fold (rm (lah x) l). now rewrite rm_id.
  - destruct (find_key k l); reflexivity.
Qed.
Definition with_hash (h : Z) (l : list lnode) : option lnode := List.find (fun x => Z.eqb (lch x) h) l.
Lemma take_hash_spec h l : nodup l ->
  take_hash h l = match with_hash h l with Some x => Some (x, rm (lah x) l) | None => None end.
Proof.
  unfold nodup. induction l as [|x l IH]; intro H; [reflexivity|]. cbn [map take_hash] in *. inversion H as [|? ? N1 N2]; subst.
  rewrite IH by assumption. unfold with_hash at 2. cbn [find]. destruct (Z.eqb_spec (lch x) h) as [E|N].
  - cbn [rm filter]. rewrite Z.eqb_refl. cbn [negb]. apply find_key_none in N1. fold (rm (lah x) l). now rewrite rm_id.
  - fold (with_hash h l). destruct (with_hash h l) as [y|] eqn:Ey; [|reflexivity]. cbn [rm filter].
    destruct (Z.eqb_spec (lah x) (lah y)) as [E|_]; [|reflexivity].
    exfalso. apply N1. rewrite E. unfold with_hash in Ey. apply find_some in Ey as [Hy _]. now apply in_map.
Qed.

Section Align.
  Variable keyof : Z -> Z.
  Definition hk (l : list lnode) : Prop := forall x, In x l -> lah x = keyof (lch x).
  Lemma hk_cons x l : hk (x :: l) -> lah x = keyof (lch x) /\ hk l.
  Proof. intro H. split; [apply H; now left|]. intros y Hy. apply H. now right. Qed.
  Lemma hk_filter f l : hk l -> hk (filter f l).
  Proof. intros H x Hx. apply filter_In in Hx as [Hx _]. auto. Qed.

  (** the element of the same key, if it has the same content *)
  Definition same (t : lnode) (l : list lnode) : option lnode :=
    match find_key (lah t) l with Some o => if Z.eqb (lch o) (lch t) then Some o else None | None => None end.
  Lemma with_hash_same t l : nodup l -> hk l -> lah t = keyof (lch t) -> with_hash (lch t) l = same t l.
  Proof.
    intros N H Ht. unfold same, with_hash. destruct (find _ l) as [x|] eqn:E.
    - apply find_some in E as [Hx E]. apply Z.eqb_eq in E.
      assert (lah x = lah t) as Ek by (rewrite Ht, (H x Hx), E; reflexivity).
      rewrite <- Ek, (find_key_NoDup l x N Hx). rewrite E, Z.eqb_refl. reflexivity.
    - destruct (find_key (lah t) l) as [o|] eqn:Ef; [|reflexivity]. pose proof (find_key_in _ _ _ Ef) as [Ho _].
      pose proof (find_none _ _ E o Ho) as F. cbv beta in F. now rewrite F.
  Qed.
  (** [l] without what has the content of one of [T] *)
  Definition minus (T l : list lnode) : list lnode :=
    filter (fun y => negb (existsb (fun t => Z.eqb (lch t) (lch y)) T)) l.
  Lemma took_hash t l : nodup l -> hk l -> lah t = keyof (lch t) ->
    took (take_hash (lch t) l) l = (same t l, minus [t] l).
  Proof.
    intros N H Ht. rewrite take_hash_spec, with_hash_same by assumption.
    unfold took. destruct (same t l) as [x|] eqn:E.
    - f_equal. unfold same in E. destruct (find_key (lah t) l) as [o|] eqn:Ef; [|discriminate].
      destruct (Z.eqb_spec (lch o) (lch t)) as [Eh|]; [|discriminate]. injection E as ->.
      pose proof (find_key_in _ _ _ Ef) as [Hx Ex]. unfold rm, minus. apply filter_ext_in. intros y Hy. cbn [existsb].
      rewrite Bool.orb_false_r. f_equal. destruct (Z.eqb_spec (lah y) (lah x)) as [Ek|Nk]; symmetry.
      + apply Z.eqb_eq. assert (y = x) as ->; [|congruence].
        pose proof (find_key_NoDup l y N Hy) as F1. pose proof (find_key_NoDup l x N Hx) as F2. congruence.
      + apply Z.eqb_neq. intro E. apply Nk. rewrite (H y Hy), (H x Hx). congruence.
    - f_equal. symmetry. unfold minus.
      induction l as [|y l IH]; [reflexivity|].
      assert (with_hash (lch t) (y :: l) = None) as W by (rewrite with_hash_same; assumption).
      unfold with_hash in W. pose proof (find_none _ _ W y (or_introl eq_refl)) as F. cbv beta in F.
      cbn [filter existsb]. rewrite Z.eqb_sym, F. cbn. f_equal. apply IH.
      + unfold nodup in N. cbn [map] in N. now inversion N.
      + now apply hk_cons in H.
      + rewrite <- with_hash_same.
        * unfold with_hash. cbn [find] in W. rewrite F in W. exact W.
        * unfold nodup in N. cbn [map] in N. now inversion N.
        * now apply hk_cons in H.
        * assumption.
  Qed.
  Lemma filter_filter {A} (f g : A -> bool) l : filter f (filter g l) = filter (fun x => (g x && f x)%bool) l.
  Proof.
    induction l as [|x l IH]; [reflexivity|]. cbn [filter]. destruct (g x); cbn [filter andb]; [|assumption].
    destruct (f x); now rewrite IH.
  Qed.
  Lemma minus_nil l : minus [] l = l.
  Proof. unfold minus. induction l as [|y l IH]; [reflexivity|]. cbn [filter]. rewrite IH. reflexivity. Qed.
  Lemma minus_minus t T l : minus T (minus [t] l) = minus (t :: T) l.
  Proof.
    unfold minus. rewrite filter_filter. apply filter_ext. intro y. cbn [existsb]. rewrite Bool.orb_false_r, Bool.negb_orb.
    reflexivity.
  Qed.
  Lemma same_minus t t' l : nodup l -> hk l -> lah t = keyof (lch t) -> lah t <> lah t' -> same t' (minus [t] l) = same t' l.
  Proof.
    intros N H Ht Nk. unfold same, minus. rewrite find_key_filter by assumption.
    destruct (find_key (lah t') l) as [o|] eqn:E; [|reflexivity]. pose proof (find_key_in _ _ _ E) as [Ho Ek]. cbn [existsb].
    destruct (Z.eqb_spec (lch t) (lch o)) as [Eh|]; [|reflexivity].
    exfalso. apply Nk. rewrite <- Ek, Ht, (H o Ho). congruence.
  Qed.
  Lemma align_same_spec T : forall os bs, nodup T -> hk T -> nodup os -> hk os -> nodup bs -> hk bs ->
    align_same T os bs = (map (fun t => (same t os, same t bs)) T, (minus T os, minus T bs)).
  Proof.
    induction T as [|t T IH]; intros os bs NT HT No Ho Nb Hb; cbn [align_same map].
    - now rewrite !minus_nil.
    - unfold nodup in NT. cbn [map] in NT. inversion NT as [|? ? N1 N2]; subst. apply hk_cons in HT as [Ht HT].
      rewrite took_hash by assumption. rewrite took_hash by assumption.
      rewrite (IH (minus [t] os) (minus [t] bs) N2 HT) by (try apply nodup_filter; try apply hk_filter; assumption).
      rewrite !minus_minus. f_equal. f_equal. apply map_ext_in. intros t' Ht'.
      assert (lah t <> lah t') as Nk by (intro E; apply N1; rewrite E; now apply in_map).
      rewrite !same_minus by assumption. reflexivity.
  Qed.

  (** [l] without the keys of [T] *)
  Definition minus_keys (T l : list lnode) : list lnode :=
    filter (fun y => negb (existsb (fun t => Z.eqb (lah t) (lah y)) T)) l.
  Lemma minus_keys_nil l : minus_keys [] l = l.
  Proof. unfold minus_keys. induction l as [|y l IH]; [reflexivity|]. cbn [filter]. rewrite IH. reflexivity. Qed.
  Lemma minus_keys_rm t T l : minus_keys T (rm (lah t) l) = minus_keys (t :: T) l.
  Proof.
    unfold minus_keys, rm. rewrite filter_filter. apply filter_ext. intro y. cbn [existsb].
    rewrite Bool.negb_orb, (Z.eqb_sym (lah t)). reflexivity.
  Qed.
  Lemma find_key_rm k k' l : nodup l -> find_key k (rm k' l) = if Z.eqb k k' then None else find_key k l.
  Proof.
    intro N. unfold rm. rewrite find_key_filter by assumption. destruct (find_key k l) as [x|] eqn:E.
    - apply find_key_in in E as [_ <-]. destruct (Z.eqb (lah x) k'); reflexivity.
    - destruct (Z.eqb k k'); reflexivity.
  Qed.
  Lemma took_key k l : nodup l -> took (take_key k l) l = (find_key k l, rm k l).
  Proof.
    intro N. rewrite take_key_spec by assumption. destruct (find_key k l) eqn:E; [reflexivity|]. cbn [took].
    now rewrite rm_id.
  Qed.
  Lemma align_keys_spec T : forall (mo mb : lnode -> option lnode) os bs,
    nodup T -> nodup os -> hk os -> nodup bs -> hk bs ->
    (forall t, In t T -> mo t <> None -> find_key (lah t) os = None) ->
    (forall t, In t T -> mb t <> None -> find_key (lah t) bs = None) ->
    exists bs', align_keys T (map (fun t => (mo t, mb t)) T) os bs
      = (map (fun t => match mo t with
                       | Some o => (mo t, mb t)
                       | None => (find_key (lah t) os, match mb t with Some b => Some b | None => find_key (lah t) bs end)
                       end) T, (minus_keys T os, bs')) /\
      nodup bs' /\ hk bs' /\ (forall k, ~ In k (map lah T) -> find_key k bs' = find_key k bs).
  Proof.
    induction T as [|t T IH]; intros mo mb os bs NT No Ho Nb Hb Mo Mb; cbn [map align_keys].
    - exists bs. rewrite minus_keys_nil. auto.
    - unfold nodup in NT. cbn [map] in NT. inversion NT as [|? ? N1 N2]; subst.
      assert (forall t', In t' T -> lah t' <> lah t) as Nk by (intros t' Ht' E; apply N1; rewrite <- E; now apply in_map).
      destruct (mo t) as [o|] eqn:Eo.
      + destruct (IH mo mb os bs N2 No Ho Nb Hb) as (bs' & E & B1 & B2 & B3);
          [intros; apply Mo; [now right|assumption]|intros; apply Mb; [now right|assumption]|].
        exists bs'. rewrite E. split; [|split; [assumption|split; [assumption|]]].
        * f_equal. f_equal. rewrite <- minus_keys_rm. rewrite rm_id; [reflexivity|].
          apply Mo; [now left|congruence].
        * intros k Hk. apply B3. intro H. apply Hk. now right.
      + rewrite (took_key (lah t) os No).
        (* the base *)
        assert (exists bs1, (match mb t with
                 | Some _ => (mb t, bs)
                 | None => match match find_key (lah t) os with Some o => take_hash (lch o) bs | None => None end with
                           | Some (b, bs) => (Some b, bs)
                           | None => took (take_key (lah t) bs) bs
                           end
                 end) = (match mb t with Some b => Some b | None => find_key (lah t) bs end, bs1) /\
                 nodup bs1 /\ hk bs1 /\ (forall k, k <> lah t -> find_key k bs1 = find_key k bs)) as (bs1 & Eb & Nb1 & Hb1 & Fb1).
        { destruct (mb t) as [b|] eqn:Em; [exists bs; auto|].
          assert (exists bs1, took (take_key (lah t) bs) bs = (find_key (lah t) bs, bs1) /\ nodup bs1 /\ hk bs1 /\
                    (forall k, k <> lah t -> find_key k bs1 = find_key k bs)) as Q.
          { exists (rm (lah t) bs). rewrite took_key by assumption. split; [reflexivity|].
            split; [now apply nodup_filter|]. split; [now apply hk_filter|]. intros k Hk. rewrite find_key_rm by assumption.
            destruct (Z.eqb_spec k (lah t)); [contradiction|reflexivity]. }
          destruct (find_key (lah t) os) as [o|] eqn:Ef; [|exact Q].
          pose proof (find_key_in _ _ _ Ef) as [Io Lo].
          rewrite take_hash_spec by assumption. rewrite with_hash_same by auto. unfold same. rewrite Lo.
          destruct (find_key (lah t) bs) as [b|] eqn:Efb; [|exact Q].
          destruct (Z.eqb (lch b) (lch o)); [|exact Q].
          exists (rm (lah b) bs). pose proof (find_key_in _ _ _ Efb) as [_ Lb]. split; [reflexivity|].
          split; [now apply nodup_filter|]. split; [now apply hk_filter|]. intros k Hk. rewrite find_key_rm by assumption.
          rewrite Lb. destruct (Z.eqb_spec k (lah t)); [contradiction|reflexivity]. }
        rewrite Eb.
        destruct (IH mo mb (rm (lah t) os) bs1 N2) as (bs' & E & B1 & B2 & B3);
          [now apply nodup_filter|now apply hk_filter|assumption|assumption| | |].
        * intros t' Ht' H. rewrite find_key_rm by assumption. destruct (Z.eqb_spec (lah t') (lah t)); [reflexivity|].
          apply Mo; [now right|assumption].
        * intros t' Ht' H. rewrite Fb1 by (now apply Nk). apply Mb; [now right|assumption].
        * exists bs'. rewrite E. split; [|split; [assumption|split; [assumption|]]].
          -- rewrite minus_keys_rm. f_equal. f_equal. apply map_ext_in. intros t' Ht'.
             destruct (mo t'); [reflexivity|]. rewrite find_key_rm by assumption.
             destruct (Z.eqb_spec (lah t') (lah t)) as [E'|_]; [exfalso; now apply (Nk t' Ht')|].
             rewrite Fb1 by (now apply Nk). reflexivity.
          -- intros k Hk. rewrite B3 by (intro H; apply Hk; now right). apply Fb1. intro E'. apply Hk. now left.
  Qed.
  Lemma align_new_spec os : forall bs, nodup os -> hk os -> nodup bs -> hk bs ->
    align_new os bs = map (fun e => (set_alts e None, find_key (lah e) bs)) os.
  Proof.
    induction os as [|e os IH]; intros bs No Ho Nb Hb; [reflexivity|]. cbn [align_new map].
    unfold nodup in No. cbn [map] in No. inversion No as [|? ? N1 N2]; subst. apply hk_cons in Ho as [He Ho].
    assert (exists bs1, (match take_hash (lch e) bs with
                         | Some (b, bs) => (Some b, bs) | None => took (take_key (lah e) bs) bs end)
                        = (find_key (lah e) bs, bs1) /\ nodup bs1 /\ hk bs1 /\
                        (forall k, k <> lah e -> find_key k bs1 = find_key k bs)) as (bs1 & -> & Nb1 & Hb1 & Fb1).
    { rewrite take_hash_spec, with_hash_same by assumption. unfold same.
      exists (rm (lah e) bs). rewrite took_key by assumption.
      assert (forall k, k <> lah e -> find_key k (rm (lah e) bs) = find_key k bs) as F.
      { intros k Hk. rewrite find_key_rm by assumption. destruct (Z.eqb_spec k (lah e)); [contradiction|reflexivity]. }
      split; [|split; [now apply nodup_filter|split; [now apply hk_filter|exact F]]].
      destruct (find_key (lah e) bs) as [b|] eqn:E; [|reflexivity]. pose proof (find_key_in _ _ _ E) as [_ Lb].
      destruct (Z.eqb (lch b) (lch e)); [now rewrite Lb|reflexivity]. }
    rewrite (IH bs1) by assumption. f_equal. apply map_ext_in. intros e' He'.
    rewrite Fb1; [reflexivity|]. intro E. apply N1. rewrite <- E. now apply in_map.
  Qed.
  Lemma by_hash_id l : nodup l -> hk l -> by_hash l = l.
  Proof.
    intros N H. unfold by_hash.
    assert (forall l d, nodup l -> hk l -> (forall x, In x l -> ~ In (lch x) (map fst d)) ->
              fold_left (fun d x => dset Z.eqb d (lch x) x) l d = d ++ map (fun x => (lch x, x)) l) as Q.
    { clear. induction l as [|x l IH]; intros d N H Hd; cbn [fold_left map]; [now rewrite app_nil_r|].
      unfold nodup in N. cbn [map] in N. inversion N as [|? ? N1 N2]; subst. apply hk_cons in H as [Hx H].
      assert (dset Z.eqb d (lch x) x = d ++ [(lch x, x)]) as ->.
      { assert (~ In (lch x) (map fst d)) as Nx by (apply Hd; now left). clear - Nx.
        induction d as [|[h y] d IHd]; [reflexivity|]. cbn [dset map fst app] in *.
        destruct (Z.eqb_spec (lch x) h) as [E|]; [exfalso; apply Nx; left; now symmetry|]. f_equal. apply IHd. intro H. apply Nx. now right. }
      rewrite IH; [|assumption|assumption|].
      2:{ intros y Hy. rewrite map_app, in_app_iff. intros [Hi|[E|[]]].
          - apply (Hd y); [now right|assumption].
          - cbn in E. apply N1. rewrite Hx, E, <- (H y Hy). now apply in_map. }
      rewrite <- app_assoc. reflexivity. }
    rewrite Q; [|assumption|assumption|intros x _ []]. cbn [app]. unfold dvalues. rewrite map_map. cbn. apply map_id.
  Qed.

  (** the base counts as missing where the other side has the same content and the base not *)
  Definition base_for (t : lnode) (o b : option lnode) : option lnode :=
    match o, b with
    | Some o, Some b => if Z.eqb (lch o) (lch t) then if Z.eqb (lch b) (lch t) then Some b else None else Some b
    | _, _ => b
    end.
  Lemma align_spec T other base : nodup T -> hk T -> nodup (kids_of other) -> hk (kids_of other) ->
    nodup (kids_of base) -> hk (kids_of base) ->
    align T other base =
      (map (fun t => (find_key (lah t) (kids_of other),
                      base_for t (find_key (lah t) (kids_of other)) (find_key (lah t) (kids_of base)))) T,
       map (fun e => (set_alts e None, find_key (lah e) (kids_of base))) (minus_keys T (kids_of other))).
  Proof.
    intros NT HT No Ho Nb Hb. unfold align. rewrite !by_hash_id by assumption.
    set (O := kids_of other) in *. set (B := kids_of base) in *.
    rewrite align_same_spec by assumption.
    assert (forall t l, In t T -> nodup l -> hk l ->
              find_key (lah t) (minus T l) = match find_key (lah t) l with
                                             | Some o => if Z.eqb (lch o) (lch t) then None else Some o | None => None end) as Fm.
    { intros t l Ht Nl Hl. unfold minus. rewrite find_key_filter by assumption.
      destruct (find_key (lah t) l) as [o|] eqn:E; [|reflexivity]. pose proof (find_key_in _ _ _ E) as [Io Lo].
      destruct (Z.eqb_spec (lch o) (lch t)) as [Eh|Nh].
      - assert (existsb (fun t0 => Z.eqb (lch t0) (lch o)) T = true) as ->; [|reflexivity].
        apply existsb_exists. exists t. split; [assumption|]. apply Z.eqb_eq. congruence.
      - assert (existsb (fun t0 => Z.eqb (lch t0) (lch o)) T = false) as ->; [|reflexivity].
        apply Bool.not_true_iff_false. rewrite existsb_exists. intros (t0 & Ht0 & E0). apply Z.eqb_eq in E0.
        assert (lah t0 = lah t) as Ek by (rewrite <- Lo, (HT t0 Ht0), (Hl o Io), E0; reflexivity).
        assert (t0 = t) by (pose proof (find_key_NoDup T t0 NT Ht0); pose proof (find_key_NoDup T t NT Ht); congruence).
        congruence. }
    assert (forall l, nodup l -> hk l -> forall k, ~ In k (map lah T) -> find_key k (minus T l) = find_key k l) as Fn.
    { intros l Nl Hl k Hk. unfold minus. rewrite find_key_filter by assumption.
      destruct (find_key k l) as [o|] eqn:E; [|reflexivity]. pose proof (find_key_in _ _ _ E) as [Io Lo].
      assert (existsb (fun t0 => Z.eqb (lch t0) (lch o)) T = false) as ->; [|reflexivity].
      apply Bool.not_true_iff_false. rewrite existsb_exists. intros (t0 & Ht0 & E0). apply Z.eqb_eq in E0.
      apply Hk. rewrite <- Lo, (Hl o Io), <- E0, <- (HT t0 Ht0). now apply in_map. }
    assert (forall t l, In t T -> nodup l -> hk l -> same t l <> None -> find_key (lah t) (minus T l) = None) as Fs.
    { intros t l Ht Nl Hl Hs. rewrite Fm by assumption. unfold same in Hs. destruct (find_key (lah t) l) as [o|]; [|reflexivity].
      destruct (Z.eqb (lch o) (lch t)); [reflexivity|contradiction]. }
    assert (minus_keys T (minus T O) = minus_keys T O) as Emk.
    { unfold minus_keys, minus. rewrite filter_filter. apply filter_ext_in. intros y Hy.
      destruct (existsb (fun t => Z.eqb (lch t) (lch y)) T) eqn:E; [|reflexivity]. cbn [negb andb].
      apply existsb_exists in E as (t & Ht & E). apply Z.eqb_eq in E. symmetry. apply Bool.negb_false_iff, existsb_exists.
      exists t. split; [assumption|]. apply Z.eqb_eq. rewrite (HT t Ht), (Ho y Hy). congruence. }
    destruct (align_keys_spec T (fun t => same t O) (fun t => same t B) (minus T O) (minus T B) NT)
      as (bs' & E & B1 & B2 & B3); try (apply nodup_filter; assumption); try (apply hk_filter; assumption).
    { intros t Ht. now apply Fs. }
    { intros t Ht. now apply Fs. }
    rewrite E, Emk. f_equal.
    - apply map_ext_in. intros t Ht. rewrite !Fm by assumption. unfold same, base_for.
      destruct (find_key (lah t) O) as [o|].
      + destruct (Z.eqb (lch o) (lch t)).
        * destruct (find_key (lah t) B) as [b|]; [|reflexivity]. destruct (Z.eqb (lch b) (lch t)); reflexivity.
        * destruct (find_key (lah t) B) as [b|]; [|reflexivity]. destruct (Z.eqb (lch b) (lch t)); reflexivity.
      + destruct (find_key (lah t) B) as [b|]; [|reflexivity]. destruct (Z.eqb (lch b) (lch t)); reflexivity.
    - rewrite align_new_spec; [|now apply nodup_filter|now apply hk_filter|assumption|assumption].
      apply map_ext_in. intros e He. f_equal. apply filter_In in He as [_ He].
      assert (~ In (lah e) (map lah T)) as Nin.
      { intro H. apply in_map_iff in H as (t & Et & Ht). apply Bool.negb_true_iff in He.
        assert (existsb (fun t => Z.eqb (lah t) (lah e)) T = true) as X; [|congruence].
        apply existsb_exists. exists t. split; [assumption|now apply Z.eqb_eq]. }
      rewrite B3 by assumption. now apply Fn.
  Qed.
End Align.

(** * Putting the children together *)
Notation stepres := (list lnode * list lnode * bool)%type.
Definition stay_of (r : stepres) : list lnode := fst (fst r).
Definition app_of (r : stepres) : list lnode := snd (fst r).
Definition placed (r : stepres) : option lnode := hd_error (stay_of r ++ app_of r).
Definition all_kids (rs : list stepres) : list lnode := flat_map stay_of rs ++ flat_map app_of rs.
(** at most one element, of the key of [t] *)
Definition one_for (t : lnode) (r : stepres) : Prop :=
  stay_of r ++ app_of r = [] \/ exists x, stay_of r ++ app_of r = [x] /\ lah x = lah t.

Lemma zip_res_ok {X Y R} (f : X -> Y -> res R) l : forall l' rs, List.length l = List.length l' ->
  zip_res f l l' = Ok rs -> Forall2 (fun xy r => f (fst xy) (snd xy) = Ok r) (combine l l') rs.
Proof.
  induction l as [|x l IH]; intros [|y l'] rs HL E; cbn [zip_res combine] in *; try discriminate.
  - injection E as <-. constructor.
  - destruct (f x y) as [r|] eqn:Ef; [|discriminate]. destruct (zip_res f l l') as [rs'|] eqn:Ez; [|discriminate].
    injection E as <-. constructor; [assumption|]. apply IH; [now injection HL|assumption].
Qed.
Lemma zip_res_total {X Y R} (f : X -> Y -> res R) l : forall l', (forall x y, In (x, y) (combine l l') -> exists r, f x y = Ok r) ->
  exists rs, zip_res f l l' = Ok rs.
Proof.
  induction l as [|x l IH]; intros [|y l'] H; cbn [zip_res]; try (eexists; reflexivity).
  destruct (H x y (or_introl eq_refl)) as [r ->]. destruct (IH l') as [rs ->]; [intros; apply H; now right|]. eexists; reflexivity.
Qed.
Lemma combine_map {X Y} (g : X -> Y) l : combine l (map g l) = map (fun x => (x, g x)) l.
Proof. induction l as [|x l IH]; cbn; congruence. Qed.
Lemma Forall2_map_l {X Y R} (g : X -> Y) (P : Y -> R -> Prop) l rs :
  Forall2 P (map g l) rs <-> Forall2 (fun x r => P (g x) r) l rs.
Proof.
  split.
  - revert rs. induction l as [|x l IH]; intros rs H; inversion H; subst; constructor; auto.
  - induction 1; constructor; auto.
Qed.

Lemma one_for_stay t r x : one_for t r -> In x (stay_of r) -> lah x = lah t.
Proof.
  intros [E|(y & E & L)] H; assert (In x (stay_of r ++ app_of r)) as Hx by (apply in_app_iff; now left);
    rewrite E in Hx; [destruct Hx|destruct Hx as [<-|[]]]. assumption.
Qed.
Lemma one_for_app t r x : one_for t r -> In x (app_of r) -> lah x = lah t.
Proof.
  intros [E|(y & E & L)] H; assert (In x (stay_of r ++ app_of r)) as Hx by (apply in_app_iff; now right);
    rewrite E in Hx; [destruct Hx|destruct Hx as [<-|[]]]. assumption.
Qed.
Lemma find_key_absent (f : stepres -> list lnode) (T : list lnode) rs k :
  (forall t r x, one_for t r -> In x (f r) -> lah x = lah t) ->
  Forall2 one_for T rs -> ~ In k (map lah T) -> find_key k (flat_map f rs) = None.
Proof.
  intros Hf H Nk. apply find_key_none. intro Hk. apply Nk. apply in_map_iff in Hk as (x & <- & Hx).
  apply in_flat_map in Hx as (r & Hr & Hx).
  induction H as [|t r0 T rs H1 H2 IH]; [destruct Hr|]. destruct Hr as [->|Hr].
  - left. symmetry. eapply Hf; eassumption.
  - right. apply IH; [|assumption]. intro. apply Nk. now right.
Qed.
Lemma all_kids_find T rs : nodup T -> Forall2 one_for T rs -> forall k,
  (forall t, find_key k T = Some t -> exists r, In (t, r) (combine T rs) /\ find_key k (all_kids rs) = placed r) /\
  (find_key k T = None -> find_key k (all_kids rs) = None).
Proof.
  intros NT H k. split.
  - intros t Ht. unfold all_kids. rewrite find_key_app.
    induction H as [|t0 r T rs H1 H2 IH]; [discriminate|].
    unfold nodup in NT. cbn [map] in NT. inversion NT as [|? ? N1 N2]; subst.
    assert (find_key k (t0 :: T) = if Z.eqb (lah t0) k then Some t0 else find_key k T) as E by reflexivity. rewrite E in Ht.
    cbn [flat_map combine]. rewrite !find_key_app.
    destruct (Z.eqb_spec (lah t0) k) as [Ek|Nk].
    + injection Ht as ->. exists r. split; [now left|]. subst k.
      rewrite (find_key_absent stay_of T rs (lah t) one_for_stay H2 N1), (find_key_absent app_of T rs (lah t) one_for_app H2 N1).
      unfold placed. destruct H1 as [Er|(x & Er & L)]; rewrite Er.
      * apply app_eq_nil in Er as [-> ->]. reflexivity.
      * cbn [hd_error]. destruct (stay_of r) as [|y l]; cbn [app] in Er.
        -- rewrite Er. cbn [find_key find]. unfold find_key. cbn [find]. rewrite L, Z.eqb_refl. reflexivity.
        -- injection Er as -> El. apply app_eq_nil in El as [-> ->]. unfold find_key. cbn [find]. rewrite L, Z.eqb_refl. reflexivity.
    + destruct (IH N2 Ht) as (r' & Hr & Ef). exists r'. split; [now right|].
      assert (find_key k (stay_of r) = None) as ->.
      { apply find_key_none. intro Hk. apply in_map_iff in Hk as (x & <- & Hx). apply Nk. symmetry. eapply one_for_stay; eassumption. }
      assert (find_key k (app_of r) = None) as ->.
      { apply find_key_none. intro Hk. apply in_map_iff in Hk as (x & <- & Hx). apply Nk. symmetry. eapply one_for_app; eassumption. }
      exact Ef.
  - intro Hn. apply find_key_none in Hn. unfold all_kids. rewrite find_key_app.
    rewrite (find_key_absent stay_of T rs k one_for_stay H Hn). apply (find_key_absent app_of T rs k one_for_app H Hn).
Qed.

Lemma all_kids_nodup T rs : nodup T -> Forall2 one_for T rs -> nodup (all_kids rs).
Proof.
  intros NT H. induction H as [|t r T rs H1 H2 IH]; [constructor|].
  unfold nodup in NT. cbn [map] in NT. inversion NT as [|? ? N1 N2]; subst.
  assert (Permutation ((stay_of r ++ app_of r) ++ all_kids rs) (all_kids (r :: rs))) as Pm.
  { unfold all_kids. cbn [flat_map]. rewrite <- !app_assoc. apply Permutation_app_head.
    rewrite !app_assoc. apply Permutation_app_tail. apply Permutation_app_comm. }
  unfold nodup. eapply Permutation_NoDup; [apply Permutation_map; exact Pm|].
  change (nodup ((stay_of r ++ app_of r) ++ all_kids rs)).
  destruct H1 as [E|(x & E & L)]; rewrite E; [now apply IH|].
  cbn [app]. unfold nodup. cbn [map]. constructor; [|now apply IH]. rewrite L. apply find_key_none. unfold all_kids. rewrite find_key_app.
  rewrite (find_key_absent stay_of T rs _ one_for_stay H2 N1). apply (find_key_absent app_of T rs _ one_for_app H2 N1).
Qed.

(** * Attributes *)
Lemma opteq_refl a : opteq a a = true.
Proof. destruct (opteq_spec a a); congruence. Qed.

Definition own_value (t o b : option pystr) : option pystr :=
  match t, o with
  | Some tv, Some ov => if opteq b t then Some ov else t
  | Some _, None => match b with Some _ => None | None => t end
  | None, _ => None
  end.
Lemma own_attrs_spec oattrs ba keys : forall attrs changed, NoDup keys -> NoDup (dkeys attrs) ->
  (forall k, In k keys -> In k (dkeys attrs)) ->
  exists attrs' c, own_attrs keys oattrs (Some ba) attrs changed = Ok (attrs', c) /\ NoDup (dkeys attrs') /\
    forall a, dget streq attrs' a = if memstr a keys
                                    then own_value (dget streq attrs a) (dget streq oattrs a) (dget streq ba a)
                                    else dget streq attrs a.
Proof.
  induction keys as [|k keys IH]; intros attrs changed Nk Na Hk; cbn [own_attrs].
  - exists attrs, changed. auto.
  - inversion Nk as [|? ? N1 N2]; subst.
    assert (exists tv, dget streq attrs k = Some tv) as [tv Etv] by (apply (dget_Some_iff _ streq_spec); apply Hk; now left).
    assert (forall (attrs1 : list (pystr * pystr)) c1 v,
              NoDup (dkeys attrs1) -> (forall x, In x keys -> In x (dkeys attrs1)) ->
              dget streq attrs1 k = v -> (forall a, a <> k -> dget streq attrs1 a = dget streq attrs a) ->
              v = own_value (dget streq attrs k) (dget streq oattrs k) (dget streq ba k) ->
              exists attrs' c, own_attrs keys oattrs (Some ba) attrs1 c1 = Ok (attrs', c) /\ NoDup (dkeys attrs') /\
                forall a, dget streq attrs' a = if memstr a (k :: keys)
                  then own_value (dget streq attrs a) (dget streq oattrs a) (dget streq ba a) else dget streq attrs a) as Q.
    { intros attrs1 c1 v Na1 Hk1 Ev Eo Ew. destruct (IH attrs1 c1 N2 Na1 Hk1) as (attrs' & c & E1 & E2 & E3).
      exists attrs', c. split; [assumption|]. split; [assumption|]. intro a. rewrite E3.
      cbn [memstr existsb]. destruct (streq_spec a k) as [->|Nak]; cbn [orb].
      - assert (memstr k keys = false) as -> by (apply Bool.not_true_iff_false; rewrite memstr_iff; assumption). congruence.
      - fold (memstr a keys). rewrite Eo by assumption. reflexivity. }
    assert (forall x, In x keys -> In x (dkeys attrs)) as Hk' by (intros x Hx; apply Hk; now right).
    destruct (dget streq oattrs k) as [ov|] eqn:Eov.
    + rewrite Etv. destruct (dget streq ba k) as [bv|] eqn:Ebv.
      * destruct (opteq (Some bv) (Some tv)) eqn:Eb; cbn [andb].
        -- destruct (opteq (Some tv) (Some ov)) eqn:Et; cbn [negb].
           ++ eapply (Q attrs _ (Some tv)); [assumption|assumption|assumption|reflexivity|]. rewrite Etv. unfold own_value. rewrite Eb.
              destruct (opteq_spec (Some tv) (Some ov)); congruence.
           ++ eapply Q; [now apply (dset_NoDup _ streq_spec)| | | |].
              ** intros x Hx. apply (dget_Some_iff _ streq_spec). destruct (streq_spec x k) as [->|Nx].
                 --- rewrite (dget_dset_same _ streq_spec). eauto.
                 --- rewrite (dget_dset_other _ streq_spec) by assumption. apply (dget_Some_iff _ streq_spec). auto.
              ** apply (dget_dset_same _ streq_spec).
              ** intros a Ha. now apply (dget_dset_other _ streq_spec).
              ** rewrite Etv. unfold own_value. now rewrite Eb.
        -- eapply (Q attrs _ (Some tv)); [assumption|assumption|assumption|reflexivity|]. rewrite Etv. unfold own_value. now rewrite Eb.
      * cbn [andb]. eapply (Q attrs _ (Some tv)); [assumption|assumption|assumption|reflexivity|]. now rewrite Etv.
    + unfold dmem. destruct (dget streq ba k) as [bv|] eqn:Ebv.
      * eapply Q; [now apply ddel_NoDup| | | |].
        -- intros x Hx. apply (dget_Some_iff _ streq_spec).
           assert (x <> k) as Nx by (intros ->; contradiction). rewrite (dget_ddel_other _ _ _ Nx). apply (dget_Some_iff _ streq_spec). auto.
        -- rewrite (dget_ddel _ streq_spec) by assumption. destruct (streq_spec k k); [reflexivity|congruence].
        -- intros a Ha. now apply dget_ddel_other.
        -- rewrite Etv. unfold own_value. reflexivity.
      * eapply (Q attrs _ (Some tv)); [assumption|assumption|assumption|reflexivity|]. now rewrite Etv.
Qed.

Lemma other_attrs_spec old ba : forall oattrs attrs changed, NoDup (dkeys oattrs) ->
  forall a, dget streq (fst (other_attrs old oattrs (Some ba) attrs changed)) a =
    match dget streq oattrs a with
    | Some ov => if memstr a old then dget streq attrs a
                 else if opteq (dget streq ba a) (Some ov) then dget streq attrs a else Some ov
    | None => dget streq attrs a
    end.
Proof.
  unfold other_attrs. induction oattrs as [|[k v] oattrs IH]; intros attrs changed ND a; [reflexivity|].
  unfold dkeys in ND. cbn [map fst] in ND. inversion ND as [|? ? N1 N2]; subst. cbn [fold_left fst snd dget].
  destruct (streq_spec a k) as [Ea|Na].
  - subst k. assert (dget streq oattrs a = None) as Ea by (apply (dget_None _ streq_spec); exact N1).
    destruct (memstr a old) eqn:Em.
    + rewrite IH by assumption. now rewrite Ea.
    + destruct (opteq (dget streq ba a) (Some v)) eqn:Eb; cbn [negb]; rewrite IH by assumption; rewrite Ea; [reflexivity|].
      apply (dget_dset_same _ streq_spec).
  - match goal with |- context[fold_left _ oattrs ?st] => destruct st as [attrs1 c1] eqn:Est end.
    rewrite IH by assumption.
    assert (dget streq attrs1 a = dget streq attrs a) as ->; [|reflexivity].
    destruct (memstr k old); [congruence|]. destruct (negb _); [|congruence].
    injection Est as <- _. now apply (dget_dset_other _ streq_spec).
Qed.

Lemma merge_attrs_spec this o b changed :
  NoDup (dkeys (lattrs this)) -> NoDup (dkeys (lattrs o)) ->
  exists attrs c, merge_attrs this (Some o) (Some b) changed = Ok (set_attrs this attrs, c) /\
    forall a, merged_value (lget this a) (lget o a) (lget b a) (dget streq attrs a).
Proof.
  intros Nt No. unfold merge_attrs. cbn [option_map].
  destruct (own_attrs_spec (lattrs o) (lattrs b) (dkeys (lattrs this)) (lattrs this) changed Nt Nt (fun _ H => H))
    as (attrs1 & c1 & -> & Na1 & E1).
  cbn [bind fst snd]. pose proof (other_attrs_spec (dkeys (lattrs this)) (lattrs b) (lattrs o) attrs1 c1 No) as E2.
  destruct (other_attrs _ _ _ attrs1 c1) as [attrs c]. cbn [fst] in E2. exists attrs, c. split; [reflexivity|].
  intro a. rewrite E2, E1. clear E1 E2. unfold lget. fold (dget streq (lattrs this) a).
  assert (memstr a (dkeys (lattrs this)) = match dget streq (lattrs this) a with Some _ => true | None => false end) as ->.
  { destruct (dget streq (lattrs this) a) as [v|] eqn:E.
    - apply memstr_iff. apply (dget_Some_iff _ streq_spec). eauto.
    - apply Bool.not_true_iff_false. rewrite memstr_iff. now apply (dget_None _ streq_spec). }
  destruct (dget streq (lattrs this) a) as [tv|], (dget streq (lattrs o) a) as [ov|], (dget streq (lattrs b) a) as [bv|];
    unfold merged_value, own_value;
    repeat match goal with |- context[opteq ?x ?y] => destruct (opteq_spec x y) end; repeat split; intros; congruence.
Qed.

(** * One level of the merge *)
Fixpoint map_res {X R} (f : X -> res R) (l : list X) : res (list R) :=
  match l with
  | [] => Ok []
  | x :: l' => do r <- f x; do rs <- map_res f l'; Ok (r :: rs)
  end.
Lemma map_res_ok {X R} (f : X -> res R) l : forall rs, map_res f l = Ok rs -> Forall2 (fun x r => f x = Ok r) l rs.
Proof.
  induction l as [|x l IH]; intros rs E; cbn [map_res] in E.
  - injection E as <-. constructor.
  - destruct (f x) as [r|] eqn:Ef; cbn [bind] in E; [|discriminate]. destruct (map_res f l) as [rs'|]; cbn [bind] in E; [|discriminate].
    injection E as <-. constructor; [assumption|]. now apply IH.
Qed.
Lemma map_res_total {X R} (f : X -> res R) l : (forall x, In x l -> exists r, f x = Ok r) -> exists rs, map_res f l = Ok rs.
Proof.
  induction l as [|x l IH]; intro H; cbn [map_res]; [eexists; reflexivity|].
  destruct (H x (or_introl eq_refl)) as [r ->]. destruct IH as [rs ->]; [intros; apply H; now right|]. cbn [bind]. eexists; reflexivity.
Qed.
Lemma Forall2_combine {X R} (P : X -> R -> Prop) l rs x r : Forall2 P l rs -> In (x, r) (combine l rs) -> P x r.
Proof. induction 1 as [|y s l rs H1 H2 IH]; intro H; [destruct H|]. destruct H as [E|H]; [now injection E as <- <-|auto]. Qed.
Lemma Forall2_in {X R} (P : X -> R -> Prop) l rs : Forall2 P l rs -> Forall2 (fun x r => In x l /\ P x r) l rs.
Proof.
  induction 1 as [|y s l rs H1 H2 IH]; constructor; [split; [now left|assumption]|].
  eapply Forall2_weaken; [|exact IH]. intros x r [A B]. split; [now right|assumption].
Qed.
Lemma nodup_app l l' : nodup l -> nodup l' -> (forall k, In k (map lah l) -> ~ In k (map lah l')) -> nodup (l ++ l').
Proof.
  unfold nodup. rewrite map_app. induction l as [|x l IH]; intros N1 N2 H; [exact N2|]. cbn [map app] in *.
  inversion N1 as [|? ? M1 M2]; subst. constructor.
  - rewrite in_app_iff. intros [A|A]; [contradiction|]. exact (H _ (or_introl eq_refl) A).
  - apply IH; [assumption|assumption|]. intros k Hk. apply H. now right.
Qed.

Lemma lah_set_attrs n a : lah (set_attrs n a) = lah n. Proof. now destruct n. Qed.
Lemma lah_set_text n x : lah (set_text n x) = lah n. Proof. now destruct n. Qed.
Lemma lah_set_kids n k : lah (set_kids n k) = lah n. Proof. now destruct n. Qed.
Lemma lah_set_alts n a : lah (set_alts n a) = lah n. Proof. now destruct n. Qed.
Lemma lah_set_hash n h : lah (set_hash n h) = lah n. Proof. now destruct n. Qed.

Section Level.
  Variable dd : pystr.
  Variable uid : option pystr.
  Variable default : option pystr.

  Lemma take_content_lah t s r : take_content dd t s = Ok r -> lah r = lah t.
  Proof.
    unfold take_content. destruct (draft3 dd s None); cbn [bind]; [|discriminate]. intro E. injection E as <-.
    now rewrite lah_set_hash, lah_set_text, lah_set_attrs, lah_set_kids.
  Qed.
  Lemma merge_alts_lah b o t r : merge_alts dd default b o t = Ok r -> lah (fst r) = lah t.
  Proof.
    unfold merge_alts. destruct o as [o|]; [|intro E; now injection E as <-].
    destruct (lalts o) as [oalt|]; [|intro E; now injection E as <-].
    destruct (lalts t) as [talt|]; [|intro E; injection E as <-; apply lah_set_alts].
    generalize (uniq [] (dkeys (alts_or_none b) ++ dkeys talt ++ dkeys oalt)). intros l.
    assert (forall l st r, fold_res
      (fun k (st : lnode * bool) =>
                     let '(target, changed) := st in
                     let talt := alts_or_none (Some target) in
                     do r <- merge_alt dd default (alts_or_none b) oalt talt k;
                     match r with
                     | None => Ok (target, changed)
                     | Some v => Ok (set_alts target (Some (dset streq talt k v)), true)
                     end) l st = Ok r -> lah (fst r) = lah (fst st)) as Q; [|intro E; exact (Q _ _ _ E)].
    clear l r. induction l as [|k l IH]; intros st r E; cbn [fold_res] in E; [now injection E as <-|].
    destruct st as [t' c]. cbn [fst].
    match type of E with context[merge_alt ?a1 ?a2 ?a3 ?a4 ?a5 ?a6] => destruct (merge_alt a1 a2 a3 a4 a5 a6) as [[v|]|] end;
      cbn [bind] in E; [| |discriminate]; apply IH in E; rewrite E; cbn [fst]; [apply lah_set_alts|reflexivity].
  Qed.
  Lemma merge_with_alts_lah b o t r : merge_with_alts dd uid default b o t = Ok r -> lah (fst r) = lah t.
  Proof.
    unfold merge_with_alts. destruct default as [d|] eqn:Ed; [|discriminate]. rewrite <- Ed.
    match goal with |- (do r <- ?e; _) = _ -> _ => destruct e as [[[b' t'] c]|] eqn:E1 end; cbn [bind]; [|discriminate].
    assert (lah t' = lah t) as Lt.
    { destruct b as [b|].
      - destruct (_ && _)%bool; [|now injection E1 as _ <- _].
        destruct (draft3 dd b None); cbn [bind] in E1; [|discriminate].
        destruct (draft3 dd t default); cbn [bind] in E1; [|discriminate].
        destruct (_ <? _); [|now injection E1 as _ <- _].
        destruct (add_alt _ _ _ _ _) as [b1|]; cbn [bind] in E1; [|discriminate].
        destruct (take_content _ _ _) as [t1|] eqn:Et; cbn [bind] in E1; [|discriminate].
        injection E1 as _ <- _. exact (take_content_lah _ _ _ Et).
      - destruct o as [o|]; [|now injection E1 as _ <- _].
        destruct (_ && _)%bool; [|now injection E1 as _ <- _].
        destruct (draft3 dd t default); cbn [bind] in E1; [|discriminate].
        destruct (draft3 dd o default); cbn [bind] in E1; [|discriminate].
        destruct (_ <? _); [now injection E1 as _ <- _|].
        destruct (take_content _ _ _) as [t1|] eqn:Et; cbn [bind] in E1; [|discriminate].
        injection E1 as _ <- _. exact (take_content_lah _ _ _ Et). }
    destruct (merge_alts _ _ _ _ _) as [r2|] eqn:E2; cbn [bind]; [|discriminate].
    intro E. injection E as <-. cbn [fst]. rewrite <- Lt. exact (merge_alts_lah _ _ _ _ E2).
  Qed.

  Variable useDrafts : bool.
  Variable winner_other : bool.
  Notation merge3_ := (merge3 dd uid useDrafts winner_other default).
  Notation step := (child_step dd uid useDrafts winner_other default).

  Lemma merge_text_lah t o b c r : merge_text dd uid useDrafts default t o b c = Ok r -> lah (fst (fst r)) = lah t.
  Proof.
    unfold merge_text.
    assert (forall t' c' (go : bool) r, lah t' = lah t ->
      (if useDrafts then do r <- merge_with_alts dd uid default b o t'; Ok (fst r, (c' || snd r)%bool, go) else Ok (t', c', go)) = Ok r ->
      lah (fst (fst r)) = lah t) as Q.
    { intros t' c' go r0 L E. destruct useDrafts.
      - destruct (merge_with_alts _ _ _ _ _ _) as [r1|] eqn:E1; cbn [bind] in E; [|discriminate]. injection E as <-. cbn [fst].
        rewrite <- L. exact (merge_with_alts_lah _ _ _ _ E1).
      - injection E as <-. exact L. }
    cbv zeta. destruct b as [b|]; [|apply Q; reflexivity].
    destruct (opteq (ltext t) (ltext b)).
    - destruct o as [o|].
      + apply Q. now rewrite lah_set_hash, lah_set_text.
      + destruct (ltext t); [|apply Q; reflexivity]. destruct useDrafts; [discriminate|].
        intro E. injection E as <-. cbn [fst]. now rewrite lah_set_hash, lah_set_text.
    - destruct o as [o|]; [|apply Q; reflexivity]. destruct (opteq (ltext o) (ltext b)); apply Q; reflexivity.
  Qed.
  Lemma merge3_lah t o b r : merge3_ t o b = Ok r -> lah (fst r) = lah t.
  Proof.
    intro E. destruct t as [tg a x k h al ks]. cbn [merge3] in E.
    destruct (align ks o b) as [ms new].
    match type of E with (do rs <- ?e; _) = _ => destruct e as [rs|] end; cbn [bind] in E; [|discriminate].
    match type of E with (do rs <- ?e; _) = _ => destruct e as [rn|] end; cbn [bind] in E; [|discriminate].
    match type of E with (do rs <- ?e; _) = _ => destruct e as [[[t' c] go]|] eqn:Et end; cbn [bind] in E; [|discriminate].
    apply merge_text_lah in Et. cbn [fst] in Et. rewrite lah_set_kids in Et. cbn [lah] in *.
    destruct go; [|injection E as <-; exact Et]. unfold merge_attrs in E.
    destruct (own_attrs _ _ _ _ _) as [[a1 c1]|]; cbn [bind fst snd] in E; [|discriminate].
    destruct (other_attrs _ _ _ _ _) as [a2 c2]. injection E as <-. cbn [fst]. now rewrite lah_set_attrs.
  Qed.
  Lemma step_one rec t mo mb r : (forall r', rec mo mb = Ok r' -> lah (fst r') = lah t) ->
    (forall o, mo = Some o -> lah o = lah t) -> step rec t (mo, mb) = Ok r -> one_for t r.
  Proof.
    intros Hrec Ho. unfold child_step.
    assert (forall c, one_for t ([t], [], c)) as Q1 by (intro; right; exists t; split; reflexivity).
    assert (forall (r' : lnode * bool) c, lah (fst r') = lah t -> one_for t ([fst r'], [], c)) as Q2
        by (intros; right; exists (fst r'); split; [reflexivity|assumption]).
    destruct mb as [b|], mo as [o|];
      repeat match goal with
             | |- (if ?c then _ else _) = _ -> _ => destruct c
             | |- (do r <- ?e; _) = _ -> _ => let E := fresh "E" in destruct e as [?|] eqn:E; cbn [bind]; [|discriminate];
                                                try apply merge_with_alts_lah in E
             | |- Ok _ = Ok _ -> _ => let E := fresh "E" in intro E; injection E as <-
             end; auto; try (left; reflexivity);
      try (right; exists o; split; [reflexivity|auto]; fail); try (apply Q2; auto; fail).
  Qed.

  (** the children after the first two loops *)
  Variable keyof : Z -> Z.
  Notation good := (fun n : lnode => keyed n /\ hash_keyed keyof n).
  Lemma good_kids n : good n -> nodup (lkids n) /\ hk keyof (lkids n).
  Proof.
    intros [K H]. split; [exact (ew_here _ _ K)|]. intros x Hx. exact (ew_here _ _ (ew_kid _ _ _ H Hx)).
  Qed.
  Definition new_kids (T O : list lnode) : list lnode := map (fun e => set_alts e None) (minus_keys T O).
  Definition no_rec (_ _ : option lnode) : res (lnode * bool) := Raise AttributeError.
  Definition child_of (O B : list lnode) (t : lnode) : res stepres :=
    step (merge3_ t) t (find_key (lah t) O, base_for t (find_key (lah t) O) (find_key (lah t) B)).
  Definition new_child_of (B : list lnode) (e : lnode) : res stepres :=
    step no_rec e (None, find_key (lah e) B).

  Lemma merge3_level t o b : good t -> good o -> good b ->
    merge3_ t (Some o) (Some b) =
      do rs <- map_res (child_of (lkids o) (lkids b)) (lkids t);
      do rn <- map_res (new_child_of (lkids b)) (new_kids (lkids t) (lkids o));
      do r <- merge_text dd uid useDrafts default (set_kids t (all_kids (rs ++ rn))) (Some o) (Some b)
                (existsb (fun r : stepres => snd r) (rs ++ rn));
      let '(this, changed, go) := r in
      if go then merge_attrs this (Some o) (Some b) changed else Ok (this, changed).
  Proof.
    intros Gt Go Gb. destruct (good_kids _ Gt) as [Nt Ht], (good_kids _ Go) as [No Ho], (good_kids _ Gb) as [Nb Hb].
    destruct t as [tg a x k h al ks]. cbn [merge3]. cbn [lkids] in *.
    rewrite (align_spec keyof ks (Some o) (Some b) Nt Ht No Ho Nb Hb). cbn [kids_of].
    assert (forall l, zip_res (fun t mm => step (merge3_ t) t mm) l
              (map (fun t => (find_key (lah t) (lkids o), base_for t (find_key (lah t) (lkids o)) (find_key (lah t) (lkids b)))) l)
            = map_res (child_of (lkids o) (lkids b)) l) as ->.
    { induction l as [|y l IH]; [reflexivity|]. cbn [map zip_res map_res]. rewrite IH. reflexivity. }
    destruct (map_res _ ks) as [rs|]; cbn [bind]; [|reflexivity].
    unfold new_kids. rewrite !map_map. cbn [fst snd].
    assert (forall l, zip_res (fun e mb => step (fun _ _ => Raise AttributeError) e (None, mb))
              (map (fun e => set_alts e None) l) (map (fun e => find_key (lah e) (lkids b)) l)
            = map_res (new_child_of (lkids b)) (map (fun e => set_alts e None) l)) as ->.
    { induction l as [|y l IH]; [reflexivity|]. cbn [map zip_res map_res]. rewrite IH. unfold new_child_of, no_rec.
      rewrite lah_set_alts. reflexivity. }
    destruct (map_res _ (map _ _)) as [rn|]; cbn [bind]; reflexivity.
  Qed.

  (** what stands at a key after the loops *)
  Lemma child_of_one O B t r : child_of O B t = Ok r -> one_for t r.
  Proof.
    apply step_one.
    - intros r'. apply merge3_lah.
    - intros o E. now apply find_key_in in E as [_ E].
  Qed.
  Lemma new_child_of_one B e r : new_child_of B e = Ok r -> one_for e r.
  Proof. apply step_one; intros; discriminate. Qed.
  Lemma new_kids_find T O k : nodup O ->
    find_key k (new_kids T O) = match find_key k T with Some _ => None | None => option_map (fun e => set_alts e None) (find_key k O) end.
  Proof.
    intro NO. unfold new_kids.
    assert (forall l, find_key k (map (fun e => set_alts e None) l) = option_map (fun e => set_alts e None) (find_key k l)) as ->.
    { induction l as [|y l IH]; [reflexivity|]. cbn [map]. unfold find_key in *. cbn [find]. rewrite lah_set_alts.
      destruct (Z.eqb (lah y) k); [reflexivity|exact IH]. }
    unfold minus_keys. rewrite find_key_filter by assumption. destruct (find_key k O) as [o|] eqn:Eo; [|now destruct (find_key k T)].
    apply find_key_in in Eo as [_ Lo].
    destruct (find_key k T) as [t|] eqn:Et.
    - apply find_key_in in Et as [It Lt]. assert (existsb (fun t => Z.eqb (lah t) (lah o)) T = true) as ->; [|reflexivity].
      apply existsb_exists. exists t. split; [assumption|]. apply Z.eqb_eq. congruence.
    - apply find_key_none in Et. assert (existsb (fun t => Z.eqb (lah t) (lah o)) T = false) as ->; [|reflexivity].
      apply Bool.not_true_iff_false. rewrite existsb_exists. intros (t & It & E). apply Z.eqb_eq in E. apply Et. rewrite <- Lo, <- E. now apply in_map.
  Qed.
  Lemma new_kids_nodup T O : nodup T -> nodup O -> nodup (T ++ new_kids T O).
  Proof.
    intros NT NO. apply nodup_app; [assumption| |].
    - unfold nodup, new_kids. rewrite map_map.
      assert (forall l, map (fun x => lah (set_alts x None)) l = map lah l) as -> by (intro; apply map_ext; intro; apply lah_set_alts).
      apply nodup_filter. assumption.
    - intros k Hk Hn. assert (find_key k (new_kids T O) = None) as E.
      { rewrite new_kids_find by assumption. destruct (find_key k T) eqn:Et; [reflexivity|]. now apply find_key_none in Et. }
      apply find_key_none in E. contradiction.
  Qed.
  Lemma level_nodup T O B rs rn : nodup T -> nodup O ->
    map_res (child_of O B) T = Ok rs -> map_res (new_child_of B) (new_kids T O) = Ok rn -> nodup (all_kids (rs ++ rn)).
  Proof.
    intros NT NO E1 E2. apply map_res_ok in E1, E2. eapply all_kids_nodup; [exact (new_kids_nodup T O NT NO)|].
    apply Forall2_app.
    - eapply Forall2_weaken; [|exact E1]. intros t r. apply child_of_one.
    - eapply Forall2_weaken; [|exact E2]. intros t r. apply new_child_of_one.
  Qed.
  Lemma level_kids T O B rs rn : nodup T -> nodup O ->
    map_res (child_of O B) T = Ok rs -> map_res (new_child_of B) (new_kids T O) = Ok rn ->
    forall k, match find_key k T with
              | Some t => exists r, child_of O B t = Ok r /\ find_key k (all_kids (rs ++ rn)) = placed r
              | None => match find_key k O with
                        | Some o => exists r, new_child_of B (set_alts o None) = Ok r /\ find_key k (all_kids (rs ++ rn)) = placed r
                        | None => find_key k (all_kids (rs ++ rn)) = None
                        end
              end.
  Proof.
    intros NT NO E1 E2 k. apply map_res_ok in E1, E2.
    pose proof (new_kids_nodup T O NT NO) as NTN.
    assert (Forall2 one_for (T ++ new_kids T O) (rs ++ rn)) as F1.
    { apply Forall2_app.
      - eapply Forall2_weaken; [|exact E1]. intros t r. apply child_of_one.
      - eapply Forall2_weaken; [|exact E2]. intros t r. apply new_child_of_one. }
    destruct (all_kids_find _ _ NTN F1 k) as [H1 H2]. rewrite find_key_app, new_kids_find in H1, H2 by assumption.
    assert (Forall2 (fun t r => (In t T /\ child_of O B t = Ok r) \/ (In t (new_kids T O) /\ new_child_of B t = Ok r))
              (T ++ new_kids T O) (rs ++ rn)) as Q.
    { apply Forall2_app.
      - apply Forall2_in in E1. eapply Forall2_weaken; [|exact E1]. cbn. tauto.
      - apply Forall2_in in E2. eapply Forall2_weaken; [|exact E2]. cbn. tauto. }
    destruct (find_key k T) as [t|] eqn:Et.
    - destruct (H1 t eq_refl) as (r & Hr & Ek). exists r. split; [|exact Ek].
      destruct (Forall2_combine _ _ _ _ _ Q Hr) as [[_ H]|[H _]]; [exact H|]. exfalso.
      apply find_key_in in Et as [It Lt].
      assert (find_key (lah t) (new_kids T O) = None) as E.
      { rewrite new_kids_find by assumption. rewrite (find_key_NoDup T t NT It). reflexivity. }
      apply find_key_none in E. apply E. now apply in_map.
    - destruct (find_key k O) as [o|] eqn:Eo; cbn [option_map] in *; [|auto].
      destruct (H1 _ eq_refl) as (r & Hr & Ek). exists r. split; [|exact Ek].
      destruct (Forall2_combine _ _ _ _ _ Q Hr) as [[H _]|[_ H]]; [|exact H]. exfalso.
      apply find_key_none in Et. apply Et. apply find_key_in in Eo as [_ <-]. rewrite <- (lah_set_alts o None). now apply in_map.
  Qed.
End Level.

(** * Without drafts *)

(** a document: siblings have different keys, the content hash determines the key hash, no
    attribute is there twice *)
Definition well_formed (keyof : Z -> Z) (n : lnode) : Prop :=
  keyed n /\ hash_keyed keyof n /\ everywhere (fun x => NoDup (dkeys (lattrs x))) n.
Lemma wf_kid keyof n c : well_formed keyof n -> In c (lkids n) -> well_formed keyof c.
Proof. intros (H1 & H2 & H3) Hc. split; [|split]; eapply ew_kid; eassumption. Qed.
Lemma wf_good keyof n : well_formed keyof n -> keyed n /\ hash_keyed keyof n.
Proof. intros (H1 & H2 & H3). now split. Qed.

Section NoDrafts.
  Variable dd : pystr.
  Variable uid : option pystr.
  Variable default : option pystr.
  Variable winner_other : bool.
  Variable keyof : Z -> Z.
  Notation merge3_ := (merge3 dd uid false winner_other default).
  Definition merges (t o b r : lnode) : Prop := exists c, merge3_ t (Some o) (Some b) = Ok (r, c).

  Lemma no_drafts_child t O B r : child_of dd uid default false winner_other O B t = Ok r ->
    outcome winner_other merges (Some t) (find_key (lah t) O) (find_key (lah t) B) (placed r).
  Proof.
    unfold child_of, child_step, base_for. intro E.
    destruct (find_key (lah t) O) as [o|], (find_key (lah t) B) as [b|]; cbn [andb] in E;
      repeat match type of E with
             | context[Z.eqb ?x ?y] => destruct (Z.eqb_spec x y); cbn [negb orb andb] in E
             | (do r <- ?e; _) = _ => let E1 := fresh "E" in destruct e as [[? ?]|] eqn:E1; cbn [bind fst snd] in E; [|discriminate]
             | (if winner_other then _ else _) = _ => destruct (Bool.bool_dec winner_other true) as [W|W];
                 [rewrite W in E|apply Bool.not_true_is_false in W; rewrite W in E]
             end;
      injection E as <-; unfold placed, stay_of, app_of; cbn [fst snd app hd_error].
    - now apply both_same.
    - now apply both_same.
    - now apply other_changed.
    - now apply this_changed.
    - apply all_differ; [assumption|assumption|assumption|]. eexists; eassumption.
    - destruct (Z.eq_dec (lch o) (lch t)); [now apply both_same|now apply both_added].
    - apply other_removed. now left.
    - apply other_removed. now right.
    - now apply other_removed_changed.
    - apply this_added.
  Qed.
  Lemma no_drafts_new e B r : new_child_of dd uid default false winner_other B (set_alts e None) = Ok r ->
    outcome winner_other merges None (Some e) (find_key (lah e) B) (placed r).
  Proof.
    unfold new_child_of, child_step. rewrite lah_set_alts. intro E.
    assert (lch (set_alts e None) = lch e) as L by now destruct e. rewrite L in E.
    destruct (find_key (lah e) B) as [b|].
    - destruct (Z.eqb_spec (lch b) (lch e)); [|destruct winner_other eqn:W]; cbn [orb] in E; injection E as <-;
        unfold placed, stay_of, app_of; cbn [fst snd app hd_error]; constructor; auto.
    - injection E as <-. unfold placed, stay_of, app_of; cbn [fst snd app hd_error]. constructor.
  Qed.

  (** Merging raises no error, and what stands at a key, the text and the attributes are those
      of a three way merge. *)
  Theorem C36_merge : forall this other base,
    well_formed keyof this -> well_formed keyof other -> well_formed keyof base ->
    exists r changed, merge3_ this (Some other) (Some base) = Ok (r, changed) /\
      (forall k, outcome winner_other merges (find_key k (lkids this)) (find_key k (lkids other)) (find_key k (lkids base))
                   (find_key k (lkids r))) /\
      NoDup (map lah (lkids r)) /\
      ltext r = (if opteq (ltext this) (ltext base) then ltext other else ltext this) /\
      (forall a, merged_value (lget this a) (lget other a) (lget base a) (lget r a)) /\
      ltag r = ltag this /\ lah r = lah this /\ lalts r = lalts this.
  Proof.
    intro this. induction this as [tg a x k0 h al ks IH] using lnode_kids_ind. rewrite Forall_forall in IH. intros other base Wt Wo Wb.
    set (this := LNode tg a x k0 h al ks) in *.
    pose proof (merge3_level dd uid default false winner_other keyof this other base (wf_good _ _ Wt) (wf_good _ _ Wo) (wf_good _ _ Wb)) as EL.
    destruct (map_res_total (child_of dd uid default false winner_other (lkids other) (lkids base)) (lkids this)) as [rs Ers].
    { intros t Ht. unfold child_of, child_step.
      destruct (find_key (lah t) (lkids other)) as [o|] eqn:Eo, (find_key (lah t) (lkids base)) as [b|] eqn:Eb; unfold base_for; cbn [andb];
        try (destruct (Z.eqb (lch o) (lch t)); cbn [negb]); try (destruct (Z.eqb (lch b) (lch t)); cbn [negb orb]);
        try (eexists; reflexivity); try (destruct winner_other; eexists; reflexivity).
      destruct (negb _); [|eexists; reflexivity].
      apply find_key_in in Eo as [Io _], Eb as [Ib _].
      destruct (IH t Ht o b (wf_kid _ _ _ Wt Ht) (wf_kid _ _ _ Wo Io) (wf_kid _ _ _ Wb Ib)) as (r & c & -> & _).
      cbn [bind]. eexists; reflexivity. }
    destruct (map_res_total (new_child_of dd uid default false winner_other (lkids base)) (new_kids (lkids this) (lkids other))) as [rn Ern].
    { intros e He. unfold new_child_of, child_step. destruct (find_key (lah e) (lkids base)) as [b|]; [|eexists; reflexivity].
      destruct (_ || _)%bool; eexists; reflexivity. }
    rewrite Ers, Ern in EL. cbn [bind] in EL.
    pose proof (level_kids dd uid default false winner_other keyof (lkids this) (lkids other) (lkids base) rs rn
                  (proj1 (good_kids _ _ (wf_good _ _ Wt))) (proj1 (good_kids _ _ (wf_good _ _ Wo))) Ers Ern) as LK.
    pose proof (level_nodup dd uid default false winner_other (lkids this) (lkids other) (lkids base) rs rn
                  (proj1 (good_kids _ _ (wf_good _ _ Wt))) (proj1 (good_kids _ _ (wf_good _ _ Wo))) Ers Ern) as LN.
    set (kids' := all_kids (rs ++ rn)) in *. set (chg := existsb _ (rs ++ rn)) in *.
    assert (forall k, outcome winner_other merges (find_key k (lkids this)) (find_key k (lkids other)) (find_key k (lkids base))
                   (find_key k kids')) as OC.
    { intro k. specialize (LK k). destruct (find_key k (lkids this)) as [t|] eqn:Et.
      - destruct LK as (r & Er & ->). apply find_key_in in Et as [_ <-]. exact (no_drafts_child _ _ _ _ Er).
      - destruct (find_key k (lkids other)) as [o|] eqn:Eo.
        + destruct LK as (r & Er & ->). apply find_key_in in Eo as [_ <-]. exact (no_drafts_new _ _ _ Er).
        + rewrite LK. constructor. }
    assert (exists n h', merge_text dd uid false default (set_kids this kids') (Some other) (Some base) chg = Ok (set_hash n h', (snd (fst (n, chg, true)) || (if opteq (ltext this) (ltext base) then negb (opteq (ltext this) (ltext other)) else false))%bool, true) /\
       lkids n = kids' /\ lattrs n = lattrs this /\ ltag n = ltag this /\ lah n = lah this /\ lalts n = lalts this /\
       ltext n = if opteq (ltext this) (ltext base) then ltext other else ltext this) as (n & h' & Et & E1 & E2 & E3 & E4 & E5 & E6).
    { unfold merge_text. assert (ltext (set_kids this kids') = ltext this) as -> by reflexivity.
      destruct (opteq (ltext this) (ltext base)).
      - exists (set_text (set_kids this kids') (ltext other)), (lch other). cbn [negb orb fst snd]. repeat split; reflexivity.
      - exists (set_kids this kids'), h. cbn [fst snd]. rewrite Bool.orb_false_r. destruct (opteq (ltext other) (ltext base)); repeat split; reflexivity. }
    rewrite Et in EL. cbn [bind] in EL.
    destruct (merge_attrs_spec (set_hash n h') other base (snd (fst (n, chg, true)) || (if opteq (ltext this) (ltext base) then negb (opteq (ltext this) (ltext other)) else false))%bool) as (attrs & c & Ea & HA).
    { assert (lattrs (set_hash n h') = lattrs this) as -> by (destruct n; exact E2). exact (ew_here _ _ (proj2 (proj2 Wt))). }
    { exact (ew_here _ _ (proj2 (proj2 Wo))). }
    exists (set_attrs (set_hash n h') attrs), c. split; [rewrite EL; exact Ea|].
    destruct n as [tg' a' x' k' h2 al' ks']. cbn [set_hash set_attrs lkids ltext lattrs ltag lah lalts lget] in *.
    split; [now rewrite E1|]. split; [now rewrite E1|]. split; [exact E6|]. split; [|auto].
    intro a0. specialize (HA a0). unfold lget in HA |- *. cbn [lattrs] in HA |- *. now rewrite E2 in HA.
  Qed.

  (** An unchanged other side: the result is this document. *)
  Theorem C36_other_unchanged : forall this base,
    well_formed keyof this -> well_formed keyof base ->
    exists r changed, merge3_ this (Some base) (Some base) = Ok (r, changed) /\
      (forall k, find_key k (lkids r) = find_key k (lkids this)) /\
      NoDup (map lah (lkids r)) /\
      ltext r = ltext this /\ (forall a, lget r a = lget this a) /\ ltag r = ltag this.
  Proof.
    intros this base Wt Wb. destruct (C36_merge this base base Wt Wb Wb) as (r & c & E & HK & HN & HT & HA & Htag & _).
    exists r, c. split; [assumption|]. split.
    { intro k. specialize (HK k). inversion HK; subst; congruence. }
    split; [assumption|]. split.
    { rewrite HT. destruct (opteq_spec (ltext this) (ltext base)); congruence. }
    split; [|assumption]. intro a. exact (proj1 (proj2 (HA a)) eq_refl).
  Qed.

  (** An unchanged this side: the result is the other document, where the elements whose content
      is the same are those of this document; elements new in the other document are copied
      without their alternates. *)
  Theorem C36_this_unchanged : forall base other,
    well_formed keyof base -> well_formed keyof other ->
    exists r changed, merge3_ base (Some other) (Some base) = Ok (r, changed) /\
      (forall k, match find_key k (lkids other), find_key k (lkids r) with
                 | Some o, Some x => match find_key k (lkids base) with
                                     | Some b => if Z.eqb (lch o) (lch b) then x = b else x = o
                                     | None => x = set_alts o None
                                     end
                 | None, None => True
                 | _, _ => False
                 end) /\
      NoDup (map lah (lkids r)) /\
      ltext r = ltext other /\ (forall a, lget r a = lget other a) /\ ltag r = ltag base.
  Proof.
    intros base other Wb Wo. destruct (C36_merge base other base Wb Wo Wb) as (r & c & E & HK & HN & HT & HA & Htag & _).
    exists r, c. split; [assumption|]. split.
    { intro k. specialize (HK k). remember (find_key k (lkids base)) as fb. remember (find_key k (lkids other)) as fo.
      remember (find_key k (lkids r)) as fr. clear - HK.
      destruct fb as [b|], fo as [o|]; inversion HK; subst; try congruence; try exact I; try reflexivity;
        try (destruct (Z.eqb_spec (lch o) (lch b)); congruence). }
    split; [assumption|]. split.
    { rewrite HT. now rewrite opteq_refl. }
    split; [|assumption]. intro a. exact (proj1 (HA a) eq_refl).
  Qed.

  (** Nothing has changed: neither does the document, and no change is reported. *)
  Theorem C36_unchanged : forall n, well_formed keyof n -> merge3_ n (Some n) (Some n) = Ok (n, false).
  Proof.
    intros n W. rewrite (merge3_level dd uid default false winner_other keyof n n n (wf_good _ _ W) (wf_good _ _ W) (wf_good _ _ W)).
    destruct (good_kids _ _ (wf_good _ _ W)) as [Nn Hn].
    assert (map_res (child_of dd uid default false winner_other (lkids n) (lkids n)) (lkids n)
            = Ok (map (fun t => ([t], [], false)) (lkids n))) as ->.
    { assert (forall l, incl l (lkids n) -> map_res (child_of dd uid default false winner_other (lkids n) (lkids n)) l
                = Ok (map (fun t => ([t], [], false)) l)) as Q; [|apply Q, incl_refl].
      induction l as [|t l IH]; intro Hi; [reflexivity|]. cbn [map_res map].
      unfold child_of at 1, child_step, base_for. rewrite (find_key_NoDup _ t Nn (Hi t (or_introl eq_refl))).
      rewrite Z.eqb_refl. cbn [negb bind]. rewrite IH by (intros y Hy; apply Hi; now right). reflexivity. }
    assert (new_kids (lkids n) (lkids n) = []) as ->.
    { unfold new_kids, minus_keys.
      assert (filter (fun y => negb (existsb (fun t => Z.eqb (lah t) (lah y)) (lkids n))) (lkids n) = []) as ->; [|reflexivity].
      assert (forall l, incl l (lkids n) -> filter (fun y => negb (existsb (fun t => Z.eqb (lah t) (lah y)) (lkids n))) l = []) as Q;
        [|apply Q, incl_refl].
      induction l as [|t l IH]; intro Hi; [reflexivity|]. cbn [filter].
      assert (existsb (fun t0 => Z.eqb (lah t0) (lah t)) (lkids n) = true) as ->.
      { apply existsb_exists. exists t. split; [apply Hi; now left|apply Z.eqb_refl]. }
      cbn [negb]. apply IH. intros y Hy. apply Hi. now right. }
    cbn [map_res bind]. rewrite app_nil_r.
    assert (all_kids (map (fun t => ([t], [], false)) (lkids n)) = lkids n) as ->.
    { unfold all_kids. assert (forall l : list lnode, flat_map stay_of (map (fun t => ([t], [], false)) l) = l) as ->
        by (induction l as [|t l IH]; [reflexivity|]; cbn; now f_equal).
      assert (forall l : list lnode, flat_map app_of (map (fun t => ([t], [], false)) l) = []) as ->
        by (induction l as [|t l IH]; [reflexivity|]; cbn; assumption).
      apply app_nil_r. }
    assert (forall l : list lnode, existsb (fun r : stepres => snd r) (map (fun t => ([t], [], false)) l) = false) as ->
      by (induction l as [|t l IH]; [reflexivity|]; cbn; assumption).
    unfold merge_text. assert (set_kids n (lkids n) = n) as -> by now destruct n. rewrite opteq_refl. cbn [negb orb bind].
    assert (set_hash (set_text n (ltext n)) (lch n) = n) as -> by now destruct n.
    unfold merge_attrs. cbn [option_map].
    pose proof (ew_here _ _ (proj2 (proj2 W))) as NA. cbn beta in NA.
    assert (forall keys, own_attrs keys (lattrs n) (Some (lattrs n)) (lattrs n) false = Ok (lattrs n, false)) as ->.
    { induction keys as [|k keys IH]; [reflexivity|]. cbn [own_attrs]. destruct (dget streq (lattrs n) k) as [v|] eqn:Ev.
      - rewrite opteq_refl. cbn [negb andb orb]. exact IH.
      - unfold dmem. rewrite Ev. exact IH. }
    cbn [bind fst snd].
    assert (forall l, incl l (lattrs n) -> other_attrs (dkeys (lattrs n)) l (Some (lattrs n)) (lattrs n) false = (lattrs n, false)) as Q.
    { unfold other_attrs. induction l as [|kv l IH]; intro Hi; [reflexivity|]. cbn [fold_left fst snd].
      assert (memstr (fst kv) (dkeys (lattrs n)) = true) as -> by (apply memstr_iff; apply in_map; apply Hi; now left).
      apply IH. intros y Hy. apply Hi. now right. }
    rewrite Q by apply incl_refl. now destruct n.
  Qed.
End NoDrafts.

(** * With drafts *)
Section Drafts3.
  Variable dd : pystr.
  Variable uid : option pystr.
  Variable winner_other : bool.
  Variable keyof : Z -> Z.

  (** Without a default draft the merge always fails: the base has no attribute default_draft. *)
  Lemma no_default_alts b o t : merge_with_alts dd uid None b o t = Raise AttributeError.
  Proof. reflexivity. Qed.
  Lemma zip_res_error {X Y R} (f : X -> Y -> res R) e l : forall l',
    (forall x y, In x l -> (exists r, f x y = Ok r) \/ f x y = Raise e) ->
    (exists rs, zip_res f l l' = Ok rs) \/ zip_res f l l' = Raise e.
  Proof.
    induction l as [|x l IH]; intros [|y l'] H; cbn [zip_res]; try (left; eexists; reflexivity).
    destruct (H x y (or_introl eq_refl)) as [[r ->]| ->]; cbn [bind]; [|now right].
    destruct (IH l') as [[rs ->]| ->]; [intros; apply H; now right| |]; cbn [bind]; [left; eexists; reflexivity|now right].
  Qed.
  Theorem C37_no_default : forall this other base,
    merge3 dd uid true winner_other None this other base = Raise AttributeError.
  Proof.
    induction this as [tg a x k0 h al ks IH] using lnode_kids_ind. rewrite Forall_forall in IH. intros other base. cbn [merge3].
    destruct (align ks other base) as [ms new].
    assert (forall rec t mm, (forall o b, rec o b = Raise AttributeError) ->
              (exists r, child_step dd uid true winner_other None rec t mm = Ok r) \/
              child_step dd uid true winner_other None rec t mm = Raise AttributeError) as Q.
    { intros rec t [mo mb] Hr. unfold child_step. rewrite !no_default_alts, !Hr. cbn [bind].
      destruct mb, mo; cbn [andb]; repeat match goal with |- context[if ?c then _ else _] => destruct c end;
        try (right; reflexivity); left; eexists; reflexivity. }
    match goal with |- (do rs <- ?e; _) = _ =>
      assert ((exists rs, e = Ok rs) \/ e = Raise AttributeError) as [[rs ->]| ->] end;
      [apply zip_res_error; intros t mm Ht; apply Q; intros; now apply IH| |reflexivity]. cbn [bind].
    match goal with |- (do rs <- ?e; _) = _ =>
      assert ((exists rs, e = Ok rs) \/ e = Raise AttributeError) as [[rn ->]| ->] end;
      [apply zip_res_error; intros t mm Ht; apply Q; reflexivity| |reflexivity]. cbn [bind].
    unfold merge_text. rewrite !no_default_alts. cbn [bind].
    destruct base as [b|], other as [o|]; repeat match goal with |- context[if ?c then _ else _] => destruct c end; try reflexivity.
  Qed.

  Variable d : pystr.
  Notation merge3_ := (merge3 dd uid true winner_other (Some d)).

  (** an alternate that only the other side has is taken over, and nothing else of the element
      changes *)
  Lemma merge_alts_new b o t name v r : lalts o = Some (alts_or_none (Some o)) ->
    dget streq (alts_or_none (Some o)) name = Some v ->
    dget streq (alts_or_none (Some t)) name = None -> dget streq (alts_or_none b) name = None ->
    merge_alts dd (Some d) b (Some o) t = Ok r ->
    snd r = true /\ exists alts, fst r = set_alts t (Some alts) /\ dget streq alts name = Some v.
  Proof.
    intros Eo Ev Et Eb. unfold merge_alts. rewrite Eo. destruct (lalts t) as [talt|] eqn:Elt.
    - set (oalt := alts_or_none (Some o)) in *. set (balt := alts_or_none b) in *.
      assert (In name (uniq [] (dkeys balt ++ dkeys talt ++ dkeys oalt))) as Hin.
      { assert (forall l seen, In name l -> ~ In name seen -> In name (uniq seen l)) as U.
        { induction l as [|y l IH]; intros seen Hl Hs; [destruct Hl|]. cbn [uniq].
          destruct (memstr y seen) eqn:Em.
          - apply IH; [|assumption]. destruct Hl as [->|Hl]; [|assumption]. apply memstr_iff in Em. contradiction.
          - destruct (streq_spec y name) as [->|Ny]; [now left|]. right. apply IH.
            + destruct Hl; congruence.
            + intros [->|H]; [congruence|contradiction]. }
        apply U; [|intros []]. rewrite !in_app_iff. right. right. apply (dget_Some_iff _ streq_spec). eauto. }
      generalize dependent (uniq [] (dkeys balt ++ dkeys talt ++ dkeys oalt)). intros names Hin.
      assert (forall names st r,
        (exists alts, fst st = set_alts t (Some alts) /\
           ((dget streq alts name = None /\ In name names) \/ (dget streq alts name = Some v /\ snd st = true))) ->
        fold_res
          (fun k (st : lnode * bool) =>
             let '(target, changed) := st in
             let talt := alts_or_none (Some target) in
             do r <- merge_alt dd (Some d) balt oalt talt k;
             match r with
             | None => Ok (target, changed)
             | Some v => Ok (set_alts target (Some (dset streq talt k v)), true)
             end) names st = Ok r ->
        snd r = true /\ exists alts, fst r = set_alts t (Some alts) /\ dget streq alts name = Some v) as Q.
      { clear names Hin r. induction names as [|k names IH]; intros [t' c] r (alts & E1 & E2) E; cbn [fst snd] in *.
        - cbn [fold_res] in E. injection E as <-. destruct E2 as [[_ []]|[E2 E3]]. cbn [fst snd]. eauto.
        - cbn [fold_res] in E.
          assert (alts_or_none (Some t') = alts) as Ea by (rewrite E1; now destruct t). rewrite Ea in E.
          destruct (merge_alt dd (Some d) balt oalt alts k) as [m|] eqn:Em; cbn [bind] in E; [|discriminate].
          destruct (streq_spec name k) as [<-|Nk].
          + unfold merge_alt in Em. rewrite Eb, Ev in Em.
            destruct E2 as [[E2 _]|[E2 E3]]; rewrite E2 in Em.
            * injection Em as <-. eapply IH; [|exact E]. exists (dset streq alts name v). split; [rewrite E1; now destruct t|].
              right. split; [apply (dget_dset_same _ streq_spec)|reflexivity].
            * destruct (draft3 dd v (Some d)); cbn [bind] in Em; [|discriminate].
              match type of Em with (do x <- ?e; _) = _ => destruct e as [dr|] end; cbn [bind] in Em; [|discriminate].
              destruct (dr <? _); injection Em as <-; (eapply IH; [|exact E]); cbn [fst snd].
              -- exists (dset streq alts name v). split; [rewrite E1; now destruct t|].
                 right. split; [apply (dget_dset_same _ streq_spec)|reflexivity].
              -- exists alts. auto.
          + destruct m as [w|]; (eapply IH; [|exact E]); cbn [fst snd].
            * exists (dset streq alts k w). split; [rewrite E1; now destruct t|]. rewrite (dget_dset_other _ streq_spec) by assumption.
              destruct E2 as [[E2 [E3|E3]]|[E2 E3]]; [congruence|now left|now right].
            * exists alts. split; [assumption|]. destruct E2 as [[E2 [E3|E3]]|[E2 E3]]; [congruence|now left|now right]. }
      intro E. eapply Q; [|exact E]. exists talt. cbn [fst snd]. split; [destruct t; cbn [lalts] in Elt; now rewrite Elt|].
      left. split; [|assumption]. unfold alts_or_none in Et. now rewrite Elt in Et.
    - intro E. injection E as <-. cbn [fst snd]. split.
      + cbn [alts_or_none] in *. destruct (lalts o) as [[|]|]; [discriminate|reflexivity|discriminate].
      + eauto.
  Qed.

  Lemma merge_alts_kids b o t r : merge_alts dd (Some d) b o t = Ok r -> lkids (fst r) = lkids t.
  Proof.
    unfold merge_alts. destruct o as [o|]; [|intro E; now injection E as <-].
    destruct (lalts o) as [oalt|]; [|intro E; now injection E as <-].
    destruct (lalts t) as [talt|]; [|intro E; injection E as <-; now destruct t].
    generalize (uniq [] (dkeys (alts_or_none b) ++ dkeys talt ++ dkeys oalt)). intros l.
    assert (forall l st r, fold_res
      (fun k (st : lnode * bool) =>
                     let '(target, changed) := st in
                     let talt := alts_or_none (Some target) in
                     do r <- merge_alt dd (Some d) (alts_or_none b) oalt talt k;
                     match r with
                     | None => Ok (target, changed)
                     | Some v => Ok (set_alts target (Some (dset streq talt k v)), true)
                     end) l st = Ok r -> lkids (fst r) = lkids (fst st)) as Q; [|intro E; exact (Q _ _ _ E)].
    clear l r. induction l as [|k l IH]; intros st r E; cbn [fold_res] in E; [now injection E as <-|].
    destruct st as [t' c]. cbn [fst].
    match type of E with context[merge_alt ?a1 ?a2 ?a3 ?a4 ?a5 ?a6] => destruct (merge_alt a1 a2 a3 a4 a5 a6) as [[v|]|] end;
      cbn [bind] in E; [| |discriminate]; apply IH in E; rewrite E; cbn [fst]; [now destruct t'|reflexivity].
  Qed.
  (** an element whose base has no text or the same content is not replaced *)
  Lemma merge_with_alts_base b o t r : (truthy (ltext b) = false \/ lch b = lch t) ->
    merge_with_alts dd uid (Some d) (Some b) o t = Ok r -> merge_alts dd (Some d) (Some b) o t = Ok r.
  Proof.
    intros H. unfold merge_with_alts.
    assert ((negb (Z.eqb (lch b) (lch t)) && truthy (ltext b))%bool = false) as ->.
    { destruct H as [->| ->]; [apply Bool.andb_false_r|]. now rewrite Z.eqb_refl. }
    cbn [bind]. destruct (merge_alts _ _ _ _ _) as [[t' c]|]; cbn [bind fst snd orb]; [auto|discriminate].
  Qed.
  Lemma merge_text_kids t o b c r : truthy (ltext b) = false ->
    merge_text dd uid true (Some d) t (Some o) (Some b) c = Ok r -> lkids (fst (fst r)) = lkids t.
  Proof.
    intros H. unfold merge_text.
    assert (forall t' c' (go : bool) r, lkids t' = lkids t ->
      (do r <- merge_with_alts dd uid (Some d) (Some b) (Some o) t'; Ok (fst r, (c' || snd r)%bool, go)) = Ok r ->
      lkids (fst (fst r)) = lkids t) as Q.
    { intros t' c' go r0 L E.
      destruct (merge_with_alts _ _ _ _ _ _) as [r1|] eqn:E1; cbn [bind] in E; [|discriminate]. injection E as <-. cbn [fst].
      rewrite <- L. apply merge_with_alts_base in E1; [|now left]. exact (merge_alts_kids _ _ _ _ E1). }
    destruct (opteq (ltext t) (ltext b)); [apply Q; now destruct t|].
    destruct (opteq (ltext o) (ltext b)); apply Q; reflexivity.
  Qed.
  Lemma level_ok this other base r changed : well_formed keyof this -> well_formed keyof other -> well_formed keyof base ->
    truthy (ltext base) = false -> merge3_ this (Some other) (Some base) = Ok (r, changed) ->
    exists rs rn, map_res (child_of dd uid (Some d) true winner_other (lkids other) (lkids base)) (lkids this) = Ok rs /\
      map_res (new_child_of dd uid (Some d) true winner_other (lkids base)) (new_kids (lkids this) (lkids other)) = Ok rn /\
      lkids r = all_kids (rs ++ rn).
  Proof.
    intros Wt Wo Wb Hb. rewrite (merge3_level dd uid (Some d) true winner_other keyof _ _ _ (wf_good _ _ Wt) (wf_good _ _ Wo) (wf_good _ _ Wb)).
    destruct (map_res _ (lkids this)) as [rs|] eqn:E1; cbn [bind]; [|discriminate].
    destruct (map_res _ (new_kids _ _)) as [rn|] eqn:E2; cbn [bind]; [|discriminate].
    destruct (merge_text _ _ _ _ _ _ _ _) as [[[t' c] go]|] eqn:E3; cbn [bind]; [|discriminate].
    apply merge_text_kids in E3; [|assumption]. cbn [fst] in E3. intro E. exists rs, rn.
    split; [reflexivity|]. split; [reflexivity|]. destruct go.
    - unfold merge_attrs in E. destruct (own_attrs _ _ _ _ _) as [[a1 c1]|]; cbn [bind] in E; [|discriminate].
      destruct (other_attrs _ _ _ _ _) as [a2 c2]. injection E as <- _. destruct t', this. exact E3.
    - injection E as <- _. now destruct this.
  Qed.

  (** The other document's change of an element is lost when it also adds an alternate: this
      document has not changed the element, the other has, and the result has the element of
      this document with the new alternate. *)
  Theorem C37_lost : forall this other base r changed k t o b name v,
    well_formed keyof this -> well_formed keyof other -> well_formed keyof base ->
    truthy (ltext base) = false ->
    find_key k (lkids this) = Some t -> find_key k (lkids other) = Some o -> find_key k (lkids base) = Some b ->
    lch b = lch t -> lch o <> lch t ->
    (exists oalts, lalts o = Some oalts /\ dget streq oalts name = Some v) ->
    (forall talts, lalts t = Some talts -> dget streq talts name = None) ->
    (forall balts, lalts b = Some balts -> dget streq balts name = None) ->
    merge3_ this (Some other) (Some base) = Ok (r, changed) ->
    exists alts, find_key k (lkids r) = Some (set_alts t (Some alts)) /\ dget streq alts name = Some v.
  Proof.
    intros this other base r changed k t o b name v Wt Wo Wb Hb Et Eo Eb Hbt Hot (oalts & Ea & Ev) Ht Hbn E.
    destruct (level_ok _ _ _ _ _ Wt Wo Wb Hb E) as (rs & rn & E1 & E2 & E3).
    pose proof (level_kids dd uid (Some d) true winner_other keyof (lkids this) (lkids other) (lkids base) rs rn
                  (proj1 (good_kids _ _ (wf_good _ _ Wt))) (proj1 (good_kids _ _ (wf_good _ _ Wo))) E1 E2 k) as LK.
    rewrite Et in LK. destruct LK as (s & Es & Ek). rewrite E3, Ek.
    apply find_key_in in Et as [_ <-]. unfold child_of, base_for, child_step in Es. rewrite Eo, Eb in Es.
    destruct (Z.eqb_spec (lch o) (lch t)) as [|_]; [contradiction|]. cbn [negb] in Es.
    destruct (Z.eqb_spec (lch b) (lch t)) as [_|]; [|contradiction].
    destruct (merge_with_alts _ _ _ _ _ _) as [[t' c]|] eqn:Em; cbn [bind] in Es; [|discriminate].
    apply merge_with_alts_base in Em; [|now right].
    destruct (merge_alts_new (Some b) o t name v (t', c)) as (Hc & alts & Ht' & Hv).
    - unfold alts_or_none. now rewrite Ea.
    - unfold alts_or_none. now rewrite Ea.
    - unfold alts_or_none. destruct (lalts t); [now apply Ht|reflexivity].
    - unfold alts_or_none. destruct (lalts b); [now apply Hbn|reflexivity].
    - exact Em.
    - cbn [fst snd] in *. subst c t'. injection Es as <-. exists alts. split; [reflexivity|assumption].
  Qed.

  (** Without alternates on the other side its change is taken over. *)
  Theorem C37_taken : forall this other base r changed k t o b,
    well_formed keyof this -> well_formed keyof other -> well_formed keyof base ->
    truthy (ltext base) = false ->
    find_key k (lkids this) = Some t -> find_key k (lkids other) = Some o -> find_key k (lkids base) = Some b ->
    lch b = lch t -> lch o <> lch t -> lalts o = None ->
    merge3_ this (Some other) (Some base) = Ok (r, changed) ->
    find_key k (lkids r) = Some o.
  Proof.
    intros this other base r changed k t o b Wt Wo Wb Hb Et Eo Eb Hbt Hot Ea E.
    destruct (level_ok _ _ _ _ _ Wt Wo Wb Hb E) as (rs & rn & E1 & E2 & E3).
    pose proof (level_kids dd uid (Some d) true winner_other keyof (lkids this) (lkids other) (lkids base) rs rn
                  (proj1 (good_kids _ _ (wf_good _ _ Wt))) (proj1 (good_kids _ _ (wf_good _ _ Wo))) E1 E2 k) as LK.
    rewrite Et in LK. destruct LK as (s & Es & Ek). rewrite E3, Ek.
    apply find_key_in in Et as [_ <-]. unfold child_of, base_for, child_step in Es. rewrite Eo, Eb in Es.
    destruct (Z.eqb_spec (lch o) (lch t)) as [|_]; [contradiction|]. cbn [negb] in Es.
    destruct (Z.eqb_spec (lch b) (lch t)) as [_|]; [|contradiction].
    destruct (merge_with_alts _ _ _ _ _ _) as [[t' c]|] eqn:Em; cbn [bind] in Es; [|discriminate].
    apply merge_with_alts_base in Em; [|now right]. unfold merge_alts in Em. rewrite Ea in Em. injection Em as <- <-.
    cbn [fst snd] in Es. injection Es as <-. reflexivity.
  Qed.

  (** Without another document (the two file form of ldmlmerge) a document whose root has the
      text of the base's cannot be merged. *)
  Theorem C37_no_other : forall this base r, ltext this = ltext base -> ltext this <> None ->
    merge3_ this None (Some base) <> Ok r.
  Proof.
    intros this base r Et Hn E. destruct this as [tg a x k h al ks]. cbn [merge3] in E.
    destruct (align ks None (Some base)) as [ms new].
    match type of E with (do rs <- ?e; _) = _ => destruct e as [rs|] end; cbn [bind] in E; [|discriminate].
    match type of E with (do rs <- ?e; _) = _ => destruct e as [rn|] end; cbn [bind] in E; [|discriminate].
    cbn [ltext] in Et, Hn. unfold merge_text in E. cbn [set_kids ltext] in E. rewrite <- Et, opteq_refl in E.
    destruct x; [discriminate|contradiction].
  Qed.
End Drafts3.

(** * Examples *)
Definition per_hundred (h : Z) : Z := (h / 100)%Z.
Fixpoint nodupsb (l : list pystr) : bool :=
  match l with [] => true | x :: l' => (negb (memstr x l') && nodupsb l')%bool end.
Lemma nodupsb_ok l : nodupsb l = true -> NoDup l.
Proof.
  induction l as [|x l IH]; [constructor|]. cbn [nodupsb]. intro H. apply Bool.andb_true_iff in H as [H1 H2].
  constructor; [|auto]. intro Hx. apply memstr_iff in Hx. rewrite Hx in H1. discriminate.
Qed.
Definition well_formedb (keyof : Z -> Z) (n : lnode) : bool :=
  (everywhereb (fun x => nodupb (map lah (lkids x))) n && everywhereb (fun x => Z.eqb (lah x) (keyof (lch x))) n
   && everywhereb (fun x => nodupsb (dkeys (lattrs x))) n)%bool.
Lemma well_formedb_ok keyof n : well_formedb keyof n = true -> well_formed keyof n.
Proof.
  unfold well_formedb. intro H. apply Bool.andb_true_iff in H as [H H3]. apply Bool.andb_true_iff in H as [H1 H2].
  split; [now apply keyed_ok|]. split.
  - eapply everywhereb_ok; [|exact H2]. intros x. apply Z.eqb_eq.
  - eapply everywhereb_ok; [|exact H3]. intros x. apply nodupsb_ok.
Qed.

(** this document changes one mark and removes an element, the other changes another mark in the
    same group, removes an element and adds one; both change the attribute of the root *)
Definition ex_base3 : lnode :=
  LNode (lit "ldml") [(lit "v", lit "1"); (lit "w", lit "1")] None 0 1 None
    [branch "delimiters" 1 101 [leaf "quotationStart" "A" 2 201; leaf "quotationEnd" "B" 3 301];
     leaf "dates" "d" 4 401; leaf "layout" "l" 5 501].
Definition ex_this3 : lnode :=
  LNode (lit "ldml") [(lit "v", lit "2"); (lit "w", lit "1")] None 0 2 None
    [branch "delimiters" 1 102 [leaf "quotationStart" "A2" 2 202; leaf "quotationEnd" "B" 3 301];
     leaf "layout" "l" 5 501].
Definition ex_other3 : lnode :=
  LNode (lit "ldml") [(lit "v", lit "3"); (lit "w", lit "9")] None 0 3 None
    [branch "delimiters" 1 103 [leaf "quotationStart" "A" 2 201; leaf "quotationEnd" "B2" 3 302];
     leaf "dates" "d" 4 401; leaf "new" "n" 6 601].
Example C36_example :
  well_formed per_hundred ex_this3 /\ well_formed per_hundred ex_other3 /\ well_formed per_hundred ex_base3 /\
  merge3 (lit "approved") None false false None ex_this3 (Some ex_other3) (Some ex_base3)
  = Ok (LNode (lit "ldml") [(lit "v", lit "2"); (lit "w", lit "9")] None 0 3 None
          [LNode (lit "delimiters") [] None 1 103 None [leaf "quotationStart" "A2" 2 202; leaf "quotationEnd" "B2" 3 302];
           leaf "new" "n" 6 601], true).
Proof.
  split; [apply well_formedb_ok; vm_compute; reflexivity|]. split; [apply well_formedb_ok; vm_compute; reflexivity|].
  split; [apply well_formedb_ok; vm_compute; reflexivity|]. vm_compute. reflexivity.
Qed.

(** the other document changes a mark and adds an alternate of it *)
Definition ex_one (n : lnode) : lnode := branch "ldml" 0 9 [n].
Definition ex_alt : lnode := LNode (lit "quotationStart") [(lit "alt", lit "variant")] (Some (lit "V")) 2 203 None [].
Example C37_example :
  let t := leaf "quotationStart" "A" 2 201 in
  let o := LNode (lit "quotationStart") [] (Some (lit "B")) 2 202 (Some [(lit "variant", ex_alt)]) [] in
  well_formed per_hundred (ex_one t) /\ well_formed per_hundred (ex_one o) /\ truthy (ltext (ex_one t)) = false /\
  find_key 2 (lkids (ex_one t)) = Some t /\ find_key 2 (lkids (ex_one o)) = Some o /\ lch o <> lch t /\
  (exists oalts, lalts o = Some oalts /\ dget streq oalts (lit "variant") = Some ex_alt) /\
  merge3 (lit "approved") None true false (Some (lit "proposed")) (ex_one t) (Some (ex_one o)) (Some (ex_one t))
  = Ok (ex_one (set_alts t (Some [(lit "variant", ex_alt)])), false).
Proof.
  cbv zeta. split; [apply well_formedb_ok; vm_compute; reflexivity|]. split; [apply well_formedb_ok; vm_compute; reflexivity|].
  split; [reflexivity|]. split; [reflexivity|]. split; [reflexivity|]. split; [vm_compute; discriminate|].
  split; [eexists; split; [reflexivity|vm_compute; reflexivity]|]. vm_compute. reflexivity.
Qed.
(** the same without the alternate *)
Example C37_taken_example :
  let t := leaf "quotationStart" "A" 2 201 in
  let o := leaf "quotationStart" "B" 2 202 in
  merge3 (lit "approved") None true false (Some (lit "proposed")) (ex_one t) (Some (ex_one o)) (Some (ex_one t))
  = Ok (ex_one o, true).
Proof. vm_compute. reflexivity. Qed.
Example C37_no_other_example :
  let n := LNode (lit "ldml") [] (Some []) 0 9 None [leaf "quotationStart" "A" 2 201] in
  merge3 (lit "approved") None true false (Some (lit "proposed")) n None (Some n) = Raise AttributeError.
Proof. vm_compute. reflexivity. Qed.
