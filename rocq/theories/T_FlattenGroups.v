(** C04 for sets with a member that starts with a backslash, such as a reference to a group. *)
From Verif Require Import Py PyFacts M_UnicodeSets P_UnicodeSets P_UnicodeSets2 T_UnicodeSets.
Local Open Scope list_scope.
Local Open Scope N_scope.

Definition referring (x : pystr) : Prop := exists t, x = 92 :: t.
Lemma referring_dec x : referring x \/ forall t, x <> 92 :: t.
Proof.
  destruct x as [|c x]; [right; discriminate|]. destruct (N.eq_dec c 92) as [->|H]; [left; now exists x|].
  right. intros t E. congruence.
Qed.
Lemma pick_result vals : forall idx, Forall2 lt idx (map (@length pystr) vals) ->
  (Exists referring (choice vals idx) -> pick vals idx = Raise AttributeError) /\
  (pick vals idx = Raise AttributeError \/ exists s, pick vals idx = Ok s).
Proof.
  induction vals as [|v vals IH]; intros idx H; cbn [map] in H; inversion H as [|i n idx' l Hi Hr]; subst.
  - split; [intro E; inversion E|right; now eexists].
  - cbn [pick choice]. rewrite (nth_error_nth' v []) by assumption. destruct (IH _ Hr) as [I1 I2].
    destruct (referring_dec (nth i v [])) as [[t E]|N].
    + rewrite E. cbn. split; [reflexivity|now left].
    + rewrite expand1_ok by assumption. cbn [bind]. split.
      * intro X. inversion X as [? ? [t E]|? ? X']; subst; [now elim (N t)|]. now rewrite I1.
      * destruct I2 as [->|[s ->]]; [now left|right; now eexists].
Qed.
Lemma mapM_raises {A B} (f : A -> res B) e l : (forall x, In x l -> f x = Raise e \/ exists y, f x = Ok y) ->
  (exists x, In x l /\ f x = Raise e) -> mapM f l = Raise e.
Proof.
  induction l as [|x l IH]; intros H (z & Hz & E); [destruct Hz|]. cbn [mapM].
  destruct (H x (or_introl eq_refl)) as [->|[y Hy]]; [reflexivity|]. rewrite Hy. cbn [bind].
  rewrite IH; [reflexivity|intros w Hw; apply H; now right|]. destruct Hz as [->|Hz]; [congruence|eauto].
Qed.

(** If a choice that would be yielded has a member that starts with a backslash, iterating ends with AttributeError. *)
Theorem C04_backslash_refuted : forall uni_digit s sets ch,
  us_parse uni_digit s = Ok sets ->
  Forall2 (fun x u => In x (us_items u)) ch sets -> ~ Forall2 (fun x u => is_least x (us_items u)) ch sets ->
  Exists referring ch ->
  exists rounds, forall fuel, (rounds <= fuel)%nat -> us_flatten uni_digit fuel s = Raise AttributeError.
Proof.
  intros ud s p ch Hp Hc Hl Hr. pose proof (us_parse_wf ud s p Hp) as Hwf.
  set (vals := map (fun u => isort strleb (us_items u)) p).
  set (lens := map (@length pystr) vals).
  assert (Hne : Forall (fun u => us_items u <> []) p).
  { eapply Forall_impl; [|exact Hwf]. cbn. intros u [_ Hu] E. rewrite E in Hu. congruence. }
  assert (Hpos : Forall (fun n => 0 < n)%nat lens).
  { unfold lens, vals. rewrite map_map. apply Forall_map. eapply Forall_impl; [|exact Hne]. cbn. intros u Hu.
    pose proof (isort_perm strleb (us_items u)) as P. apply Permutation.Permutation_length in P.
    destruct (us_items u); [congruence|]. cbn in *. lia. }
  exists (prod lens). intros fuel Hf. unfold us_flatten. rewrite Hp. cbn [bind]. fold vals. fold lens.
  pose proof (prod_pos lens Hpos) as HP.
  replace (map (fun _ => O) vals) with (digits lens 0).
  2:{ rewrite digits_0. unfold lens. rewrite map_map. reflexivity. }
  rewrite odo_loop_digits with (m := (prod lens - 1)%nat) by (auto; lia). cbn [bind].
  assert (Hd : forall k, Forall2 lt (digits lens k) (map (@length pystr) vals)) by (intros; now apply digits_lt).
  assert (Hv : Forall2 (@In pystr) ch vals).
  { unfold vals. clear -Hc. induction Hc as [|x u ch p Hx _ IH]; constructor; [|exact IH].
    eapply Permutation.Permutation_in; [|exact Hx]. apply isort_perm. }
  apply choice_surj in Hv as (idx & Hi & Hch). apply digits_surj in Hi as (k & Hk & <-). fold lens in Hk.
  apply mapM_raises.
  - intros x Hx. apply in_map_iff in Hx as (j & <- & _). now apply pick_result.
  - exists (digits lens k). split.
    + apply in_map_iff. exists k. split; [reflexivity|]. apply in_seq. destruct k as [|k]; [|lia]. exfalso. apply Hl.
      rewrite <- Hch, digits_0. unfold lens, vals. clear -Hne. induction Hne as [|u p Hu _ IH]; [constructor|].
      cbn [map choice]. constructor; [|exact IH]. now apply isort_head_least.
    + apply pick_result; [auto|]. unfold lens. now rewrite Hch.
Qed.
(** a set with a reference, and one with an escaped backslash *)
Example C04_backslash_case : forall ud, us_flatten ud 10 (lit "[A\1]") = Raise AttributeError /\
  us_flatten ud 10 (lit "[a\\][bc]") = Raise AttributeError.
Proof. intro ud. split; vm_compute; reflexivity. Qed.
