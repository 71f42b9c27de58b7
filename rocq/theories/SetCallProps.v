(** * Lemmas: the number of comparisons of operations of a SortedSet and a SortedDict *)
From Coq Require Import Lia Permutation.
From Verif Require Import PyBase Model Spec History BaseFacts SpecFacts Reach Shape ListSim HistFacts ListClass ClassSpec ClassFacts ModelSet SetSpec HashFacts SetFacts
  ModelDict DictSpec MapFacts DictFacts Calls CallSpec CallFacts CallProps SetCalls.
Local Unset Implicit Arguments.

Section Zoom.
  Context {X S S1 A : Type}.
  Lemma lzoom_erase (g : S -> S1) (p : S1 -> S -> S) (ml : ML X S1 A) (m : M S1 A) s :
    erase ml (g s) = m (g s) -> erase (lzoom g p ml) s = zoom g p m s.
  Proof. unfold erase, lzoom, zoom. intros <-. destruct (ml (g s)) as [l [r x]]. reflexivity. Qed.
  Lemma lzoom_stable (g : S -> S1) (p : S1 -> S -> S) lt eq lt' eq' (m m' : ML X S1 A) :
    stable lt eq lt' eq' m m' -> stable lt eq lt' eq' (lzoom g p m) (lzoom g p m').
  Proof. intros H s Ha. unfold lzoom in *. specialize (H (g s)). destruct (m (g s)) as [l [r x]]. cbn [fst] in *. rewrite (H Ha). reflexivity. Qed.
  Lemma lzoom_calls (g : S -> S1) (p : S1 -> S -> S) (m : ML X S1 A) s : calls (lzoom g p m) s = calls m (g s).
  Proof. unfold calls, lzoom. destruct (m (g s)) as [l [r x]]. reflexivity. Qed.
End Zoom.
Lemma lforM_erase {X S A} (f : A -> ML X S unit) (f0 : A -> M S unit) l : (forall a s, erase (f a) s = f0 a s) ->
  forall s, erase (lforM f l) s = forM f0 l s.
Proof.
  intros H. induction l as [|a l IH]; intros s; [reflexivity|]. cbn [lforM forM]. apply erase_bind; [apply H|]. intros [] s1 _. apply IH.
Qed.
Lemma lforM_stable {X S A} lt eq lt' eq' (f f' : A -> ML X S unit) l : (forall a, stable lt eq lt' eq' (f a) (f' a)) ->
  stable lt eq lt' eq' (lforM f l) (lforM f' l).
Proof. intros H. induction l as [|a l IH]; [apply stable_quiet|]. cbn [lforM]. apply stable_bind; [apply H|]. intros _. exact IH. Qed.

(** ** SortedSet *)
Section Sets.
  Context {S V K X : Type}.
  Variable eqb : V -> V -> bool.
  Variable ord : nat -> list V -> list V.
  Notation SS := (sset S V).

  Section Erased.
    Variable T : listcls S V K.
    Variables addlog removelog : V -> ML X S unit.
    Hypothesis Ha : forall v x, erase (addlog v) x = l_add T v x.
    Hypothesis Hr : forall v x, erase (removelog v) x = l_remove T v x.
    Lemma ss_add_erase v (s : SS) : erase (ss_add_log eqb addlog v) s = ss_add T eqb v s.
    Proof.
      unfold ss_add_log, ss_add. apply erase_bind; [reflexivity|]. intros m s1 _. destruct (set_mem eqb v m); [reflexivity|].
      apply erase_bind; [reflexivity|]. intros [] s2 _. apply lzoom_erase, Ha.
    Qed.
    Lemma ss_discard_erase v (s : SS) : erase (ss_discard_log eqb removelog v) s = ss_discard T eqb v s.
    Proof.
      unfold ss_discard_log, ss_discard. apply erase_bind; [reflexivity|]. intros m s1 _. destruct (set_mem eqb v m); [|reflexivity].
      apply erase_bind; [reflexivity|]. intros [] s2 _. apply lzoom_erase, Hr.
    Qed.
    Lemma ss_remove_erase v (s : SS) : erase (ss_remove_log eqb removelog v) s = ss_remove T eqb v s.
    Proof. unfold ss_remove_log, ss_remove. apply erase_bind; [reflexivity|]. intros [] s2 _. apply lzoom_erase, Hr. Qed.
    Lemma ss_update_erase its (s : SS) : 4 * length (set_of eqb (concat (map (@items V) its))) <= length (s_set s) ->
      erase (ss_update_log eqb ord addlog its) s = ss_update T eqb ord its s.
    Proof.
      intros H. unfold ss_update_log, ss_update. unfold bind at 1. unfold members, bind at 1, get, ret. apply Nat.ltb_ge in H. rewrite H.
      apply erase_bind; [reflexivity|]. intros vs s1 _. apply lforM_erase, ss_add_erase.
    Qed.
    Lemma ss_difference_update_erase its (s : SS) : 4 * length (set_of eqb (concat (map (@items V) its))) <= length (s_set s) ->
      erase (ss_difference_update_log eqb ord removelog its) s = ss_difference_update T eqb ord its s.
    Proof.
      intros H. unfold ss_difference_update_log, ss_difference_update. unfold bind at 1. unfold members, bind at 1, get, ret. apply Nat.ltb_ge in H. rewrite H.
      apply erase_bind; [reflexivity|]. intros vs s1 _. apply lforM_erase, ss_discard_erase.
    Qed.
  End Erased.
  Section Stable.
    Variables lt eq lt' eq' : X -> X -> res bool.
    Notation stable := (stable lt eq lt' eq').
    Lemma ss_add_stable (f f' : V -> ML X S unit) v : stable (f v) (f' v) -> stable (ss_add_log eqb f v) (ss_add_log eqb f' v).
    Proof.
      intros H. unfold ss_add_log. apply stable_bind; [apply stable_quiet|]. intros m. destruct (set_mem eqb v m); [apply stable_quiet|].
      apply stable_bind; [apply stable_quiet|]. intros _. apply lzoom_stable, H.
    Qed.
    Lemma ss_discard_stable (f f' : V -> ML X S unit) v : stable (f v) (f' v) -> stable (ss_discard_log eqb f v) (ss_discard_log eqb f' v).
    Proof.
      intros H. unfold ss_discard_log. apply stable_bind; [apply stable_quiet|]. intros m. destruct (set_mem eqb v m); [|apply stable_quiet].
      apply stable_bind; [apply stable_quiet|]. intros _. apply lzoom_stable, H.
    Qed.
    Lemma ss_remove_stable (f f' : V -> ML X S unit) v : stable (f v) (f' v) -> stable (ss_remove_log eqb f v) (ss_remove_log eqb f' v).
    Proof. intros H. unfold ss_remove_log. apply stable_bind; [apply stable_quiet|]. intros _. apply lzoom_stable, H. Qed.
    Lemma ss_update_stable (f f' : V -> ML X S unit) its : (forall v, stable (f v) (f' v)) -> stable (ss_update_log eqb ord f its) (ss_update_log eqb ord f' its).
    Proof. intros H. unfold ss_update_log. apply stable_bind; [apply stable_quiet|]. intros vs. apply lforM_stable. intros v. apply ss_add_stable, H. Qed.
    Lemma ss_difference_update_stable (f f' : V -> ML X S unit) its : (forall v, stable (f v) (f' v)) ->
      stable (ss_difference_update_log eqb ord f its) (ss_difference_update_log eqb ord f' its).
    Proof. intros H. unfold ss_difference_update_log. apply stable_bind; [apply stable_quiet|]. intros vs. apply lforM_stable. intros v. apply ss_discard_stable, H. Qed.
  End Stable.
  Section Counts.
    Variable T : listcls S V K.
    Variable ltb : V -> V -> bool.
    Variable fref : fwd V K -> list V -> out V * list V.
    Variable dflt : nat.
    Variable R : S -> list V -> Prop.
    Variable ld : S -> nat.
    Hypothesis HK : ClsOK T ltb eqb fref dflt R ld.
    Hypothesis HO : any_order ord.
    Variables addlog removelog : V -> ML X S unit.
    Hypothesis Ha : forall v x, erase (addlog v) x = l_add T v x.
    Hypothesis Hr : forall v x, erase (removelog v) x = l_remove T v x.
    Hypothesis Hca : forall v x l, R x l -> calls (addlog v) x <= Nat.log2 (length l) + 6.
    Hypothesis Hcr : forall v x l, R x l -> calls (removelog v) x <= Nat.log2 (length l) + 7.
    Notation SI := (SInv eqb R).
    Let HE : Equiv eqb := k_equiv _ _ _ _ _ _ _ HK.

    Lemma mem_here s l v : SI s l -> set_mem eqb v (s_set s) = sp_contains eqb v l.
    Proof.
      intros HI. apply eq_true_iff_eq. rewrite set_mem_iff, (sinv_mem eqb R s l v HI). unfold sp_contains. symmetry. exact (set_mem_iff eqb v l).
    Qed.
    Lemma ss_add_calls v s l : SI s l -> calls (ss_add_log eqb addlog v) s <= if sp_contains eqb v l then 0 else Nat.log2 (length l) + 6.
    Proof.
      intros HI. unfold ss_add_log. apply calls_bind0. intros m s1 E. injection E as <- <-. rewrite (mem_here s l v HI).
      destruct (sp_contains eqb v l); [cbn; lia|]. apply calls_bind0. intros [] s2 E. injection E as <-. unfold onlist_log. rewrite lzoom_calls. apply Hca, HI.
    Qed.
    Lemma ss_discard_calls v s l : SI s l -> calls (ss_discard_log eqb removelog v) s <= if sp_contains eqb v l then Nat.log2 (length l) + 7 else 0.
    Proof.
      intros HI. unfold ss_discard_log. apply calls_bind0. intros m s1 E. injection E as <- <-. rewrite (mem_here s l v HI).
      destruct (sp_contains eqb v l); [|cbn; lia]. apply calls_bind0. intros [] s2 E. unfold set_remove, members, bind, get, ret, put_set, modify in E.
      destruct (set_mem eqb v (s_set s)); [|discriminate E]. injection E as <-. unfold onlist_log. rewrite lzoom_calls. apply Hcr, HI.
    Qed.
    Lemma ss_remove_calls v s l : SI s l -> calls (ss_remove_log eqb removelog v) s <= if sp_contains eqb v l then Nat.log2 (length l) + 7 else 0.
    Proof.
      intros HI. unfold ss_remove_log. apply calls_bind0. intros [] s2 E. unfold set_remove, members, bind, get, ret, put_set, modify in E.
      rewrite (mem_here s l v HI) in E. destruct (sp_contains eqb v l); [|discriminate E]. injection E as <-. unfold onlist_log. rewrite lzoom_calls. apply Hcr, HI.
    Qed.
    Lemma adds_calls vs : forall s l, SI s l -> calls (lforM (ss_add_log eqb addlog) vs) s <= length vs * (Nat.log2 (length l + length vs) + 6).
    Proof.
      induction vs as [|v vs IH]; intros s l HI; [cbn; lia|]. cbn [lforM length].
      assert (Hm : Nat.log2 (length l) <= Nat.log2 (length l + Datatypes.S (length vs))) by (apply Nat.log2_le_mono; lia).
      apply Nat.le_trans with ((Nat.log2 (length l) + 6) + length vs * (Nat.log2 (length l + Datatypes.S (length vs)) + 6)); [|nia].
      apply calls_bind.
      - pose proof (ss_add_calls v s l HI). destruct (sp_contains eqb v l); lia.
      - intros [] s1 E. change (snd (ss_add_log eqb addlog v s)) with (erase (ss_add_log eqb addlog v) s) in E. rewrite (ss_add_erase T addlog Ha) in E.
        destruct (ss_add_ok T ltb eqb fref dflt R ld HK v s l HI) as (s' & l' & E' & HI' & _ & _ & Hc). rewrite E' in E. injection E as <-.
        etransitivity; [exact (IH s' l' HI')|]. apply Nat.mul_le_mono_l. apply Nat.add_le_mono_r. apply Nat.log2_le_mono.
        destruct Hc as [(_ & -> & _)|(_ & a & b & -> & ->)]; rewrite ?app_length; cbn [length]; lia.
    Qed.
    Lemma discards_calls vs : forall s l, SI s l -> calls (lforM (ss_discard_log eqb removelog) vs) s <= length vs * (Nat.log2 (length l) + 7).
    Proof.
      induction vs as [|v vs IH]; intros s l HI; [cbn; lia|]. cbn [lforM length].
      apply Nat.le_trans with ((Nat.log2 (length l) + 7) + length vs * (Nat.log2 (length l) + 7)); [|nia].
      apply calls_bind.
      - pose proof (ss_discard_calls v s l HI). destruct (sp_contains eqb v l); lia.
      - intros [] s1 E. change (snd (ss_discard_log eqb removelog v s)) with (erase (ss_discard_log eqb removelog v) s) in E. rewrite (ss_discard_erase T removelog Hr) in E.
        destruct (ss_discard_ok T ltb eqb fref dflt R ld HK v s l HI) as (s' & l' & E' & HI' & _ & _ & Hc). rewrite E' in E. injection E as <-.
        etransitivity; [exact (IH s' l' HI')|]. apply Nat.mul_le_mono_l. apply Nat.add_le_mono_r. apply Nat.log2_le_mono.
        destruct Hc as [(_ & -> & _)|(a & x & b & -> & _ & ->)]; rewrite ?app_length; cbn [length]; lia.
    Qed.
    Lemma ss_update_calls its s l : SI s l -> let k := length (set_of eqb (concat (map (@items V) its))) in
      calls (ss_update_log eqb ord addlog its) s <= k * (Nat.log2 (length l + k) + 6).
    Proof.
      intros HI k. unfold ss_update_log. apply calls_bind0. intros vs s1 E. rewrite visit_ok in E. injection E as <- <-.
      etransitivity; [apply (adds_calls _ _ l); exact HI|]. rewrite (Permutation_length (HO _ _)). fold k. lia.
    Qed.
    Lemma ss_difference_update_calls its s l : SI s l -> let k := length (set_of eqb (concat (map (@items V) its))) in
      calls (ss_difference_update_log eqb ord removelog its) s <= k * (Nat.log2 (length l) + 7).
    Proof.
      intros HI k. unfold ss_difference_update_log. apply calls_bind0. intros vs s1 E. rewrite visit_ok in E. injection E as <- <-.
      etransitivity; [apply (discards_calls _ _ l); exact HI|]. rewrite (Permutation_length (HO _ _)). fold k. lia.
    Qed.
  End Counts.
End Sets.

(** ** SortedDict *)
Section Dicts.
  Context {S A B K X : Type}.
  Variable eqb : A -> A -> bool.
  Notation SD := (sdict S A B).

  Section Erased.
    Variable T : listcls S A K.
    Variables addlog removelog : A -> ML X S unit.
    Hypothesis Ha : forall v x, erase (addlog v) x = l_add T v x.
    Hypothesis Hr : forall v x, erase (removelog v) x = l_remove T v x.
    Lemma sd_setitem_erase k v (s : SD) : erase (sd_setitem_log eqb addlog k v) s = sd_setitem T eqb k v s.
    Proof.
      unfold sd_setitem_log, sd_setitem. apply erase_bind; [reflexivity|]. intros d s1 _.
      apply erase_bind; [|reflexivity]. destruct (d_mem eqb k d); [reflexivity|]. apply lzoom_erase, Ha.
    Qed.
    Lemma sd_delitem_erase k (s : SD) : erase (sd_delitem_log eqb removelog k) s = sd_delitem T eqb k s.
    Proof. unfold sd_delitem_log, sd_delitem. apply erase_bind; [reflexivity|]. intros [] s2 _. apply lzoom_erase, Hr. Qed.
    Lemma sd_pop_erase k v (s : SD) : erase (sd_pop_log eqb removelog k v) s = sd_pop T eqb k v s.
    Proof.
      unfold sd_pop_log, sd_pop. apply erase_bind; [reflexivity|]. intros d s1 _. destruct (d_mem eqb k d); [|destruct v; reflexivity].
      apply erase_bind; [apply lzoom_erase, Hr|]. intros [] s2 _. apply erase_bind; [reflexivity|]. intros w s3 _. apply erase_bind; reflexivity.
    Qed.
    Lemma sd_setdefault_erase k v (s : SD) : erase (sd_setdefault_log eqb addlog k v) s = sd_setdefault T eqb k v s.
    Proof.
      unfold sd_setdefault_log, sd_setdefault. apply erase_bind; [reflexivity|]. intros d s1 _. destruct (d_mem eqb k d); [reflexivity|].
      apply erase_bind; [reflexivity|]. intros [] s2 _. apply erase_bind; [apply lzoom_erase, Ha|]. reflexivity.
    Qed.
    Lemma sd_update_erase a (s : SD) : d_items s <> [] -> 10 * length (match a with ADict ps => ps | APairs ps => d_of eqb ps end) <= length (d_items s) ->
      erase (sd_update_log eqb addlog a) s = sd_update T eqb a s.
    Proof.
      intros H0 H. unfold sd_update_log, sd_update. unfold bind at 1. unfold items_of, bind at 1, get, ret. apply Nat.ltb_ge in H. rewrite H.
      destruct (Nat.eqb_spec (length (d_items s)) 0) as [E|_]; [apply length_zero_iff_nil in E; contradiction|].
      apply lforM_erase. intros p s1. apply sd_setitem_erase.
    Qed.
  End Erased.
  Section Stable.
    Variables lt eq lt' eq' : X -> X -> res bool.
    Notation stable := (stable lt eq lt' eq').
    Lemma sd_setitem_stable (f f' : A -> ML X S unit) k (v : B) : stable (f k) (f' k) -> stable (sd_setitem_log eqb f k v) (sd_setitem_log eqb f' k v).
    Proof.
      intros H. unfold sd_setitem_log. apply stable_bind; [apply stable_quiet|]. intros d. apply stable_bind; [|intros; apply stable_quiet].
      destruct (d_mem eqb k d); [apply stable_quiet|]. apply lzoom_stable, H.
    Qed.
    Lemma sd_delitem_stable (f f' : A -> ML X S unit) k : stable (f k) (f' k) -> stable (@sd_delitem_log S A B X eqb f k) (sd_delitem_log eqb f' k).
    Proof. intros H. unfold sd_delitem_log. apply stable_bind; [apply stable_quiet|]. intros _. apply lzoom_stable, H. Qed.
    Lemma sd_pop_stable (f f' : A -> ML X S unit) k (v : option B) : stable (f k) (f' k) -> stable (sd_pop_log eqb f k v) (sd_pop_log eqb f' k v).
    Proof.
      intros H. unfold sd_pop_log. apply stable_bind; [apply stable_quiet|]. intros d. destruct (d_mem eqb k d); [|destruct v; apply stable_quiet].
      apply stable_bind; [apply lzoom_stable, H|]. intros _. apply stable_bind; [apply stable_quiet|]. intros w. apply stable_bind; intros; apply stable_quiet.
    Qed.
    Lemma sd_setdefault_stable (f f' : A -> ML X S unit) k (v : B) : stable (f k) (f' k) -> stable (sd_setdefault_log eqb f k v) (sd_setdefault_log eqb f' k v).
    Proof.
      intros H. unfold sd_setdefault_log. apply stable_bind; [apply stable_quiet|]. intros d. destruct (d_mem eqb k d); [apply stable_quiet|].
      apply stable_bind; [apply stable_quiet|]. intros _. apply stable_bind; [apply lzoom_stable, H|]. intros; apply stable_quiet.
    Qed.
    Lemma sd_update_stable (f f' : A -> ML X S unit) (a : darg A B) : (forall k, stable (f k) (f' k)) -> stable (sd_update_log eqb f a) (sd_update_log eqb f' a).
    Proof. intros H. unfold sd_update_log. apply lforM_stable. intros p. apply sd_setitem_stable, H. Qed.
  End Stable.
  Section Counts.
    Variable T : listcls S A K.
    Variable ltb : A -> A -> bool.
    Variable fref : fwd A K -> list A -> out A * list A.
    Variable dflt : nat.
    Variable R : S -> list A -> Prop.
    Variable ld : S -> nat.
    Hypothesis HK : ClsOK T ltb eqb fref dflt R ld.
    Variables addlog removelog : A -> ML X S unit.
    Hypothesis Ha : forall v x, erase (addlog v) x = l_add T v x.
    Hypothesis Hr : forall v x, erase (removelog v) x = l_remove T v x.
    Hypothesis Hca : forall v x l, R x l -> calls (addlog v) x <= Nat.log2 (length l) + 6.
    Hypothesis Hcr : forall v x l, R x l -> calls (removelog v) x <= Nat.log2 (length l) + 7.
    Notation DI := (DInv ltb eqb R).
    Definition present (k : A) (d : list (A * B)) : bool := match lookup eqb k d with Some _ => true | None => false end.

    Lemma dsize (s : SD) : length (map fst (listing ltb (d_items s))) = length (d_items s).
    Proof. rewrite listing_keys. rewrite (Permutation_length (sp_sort_perm ltb (k_swo _ _ _ _ _ _ _ HK) _)). apply map_length. Qed.
    Lemma sd_addk k (s : SD) : DI s -> calls (onkeys_log (addlog k)) s <= Nat.log2 (length (d_items s)) + 6.
    Proof. intros [HR _]. unfold onkeys_log. rewrite lzoom_calls. rewrite <- (dsize s). apply Hca, HR. Qed.
    Lemma sd_removek k (s d : SD) x : R x (map fst (listing ltb (d_items s))) -> d_list d = x -> calls (onkeys_log (removelog k)) d <= Nat.log2 (length (d_items s)) + 7.
    Proof. intros HR <-. unfold onkeys_log. rewrite lzoom_calls. rewrite <- (dsize s). apply Hcr, HR. Qed.
    Lemma sd_setitem_calls k v (s : SD) : DI s -> calls (sd_setitem_log eqb addlog k v) s <= if present k (d_items s) then 0 else Nat.log2 (length (d_items s)) + 6.
    Proof.
      intros HI. unfold sd_setitem_log, present. apply calls_bind0. intros d s1 E. injection E as <- <-. rewrite d_mem_lookup.
      destruct (lookup eqb k (d_items s)); [cbn; lia|]. replace (Nat.log2 (length (d_items s)) + 6) with (Nat.log2 (length (d_items s)) + 6 + 0) by lia.
      apply calls_bind; [apply sd_addk, HI|]. intros [] s2 _. cbn. lia.
    Qed.
    Lemma sd_setdefault_calls k v (s : SD) : DI s -> calls (sd_setdefault_log eqb addlog k v) s <= if present k (d_items s) then 0 else Nat.log2 (length (d_items s)) + 6.
    Proof.
      intros HI. unfold sd_setdefault_log, present. apply calls_bind0. intros d s1 E. injection E as <- <-. rewrite d_mem_lookup.
      destruct (lookup eqb k (d_items s)); [cbn; lia|]. apply calls_bind0. intros [] s2 E. injection E as <-.
      replace (Nat.log2 (length (d_items s)) + 6) with (Nat.log2 (length (d_items s)) + 6 + 0) by lia.
      apply calls_bind; [|intros [] s2 _; cbn; lia]. unfold onkeys_log. rewrite lzoom_calls. cbn [d_list]. rewrite <- (dsize s). apply Hca, HI.
    Qed.
    Lemma sd_delitem_calls k (s : SD) : DI s -> calls (sd_delitem_log eqb removelog k) s <= if present k (d_items s) then Nat.log2 (length (d_items s)) + 7 else 0.
    Proof.
      intros HI. unfold sd_delitem_log, present. apply calls_bind0. intros [] s2 E. unfold dict_delitem, items_of, bind, get, ret, put_items, modify, raise in E.
      rewrite d_mem_lookup in E. destruct (lookup eqb k (d_items s)); [|discriminate E]. injection E as <-. apply (sd_removek k s _ (d_list s)); [apply HI|reflexivity].
    Qed.
    Lemma sd_pop_calls k v (s : SD) : DI s -> calls (sd_pop_log eqb removelog k v) s <= if present k (d_items s) then Nat.log2 (length (d_items s)) + 7 else 0.
    Proof.
      intros HI. unfold sd_pop_log, present. apply calls_bind0. intros d s1 E. injection E as <- <-. rewrite d_mem_lookup.
      destruct (lookup eqb k (d_items s)); [|destruct v; cbn; lia].
      replace (Nat.log2 (length (d_items s)) + 7) with (Nat.log2 (length (d_items s)) + 7 + 0) by lia.
      apply calls_bind; [apply (sd_removek k s _ (d_list s)); [apply HI|reflexivity]|]. intros [] s2 _.
      apply calls_bind0. intros w s3 _. apply calls_bind0. intros [] s4 _. cbn. lia.
    Qed.
    Lemma sets_calls ps : forall (s : SD), DI s ->
      calls (lforM (fun p => sd_setitem_log eqb addlog (fst p) (snd p)) ps) s <= length ps * (Nat.log2 (length (d_items s) + length ps) + 6).
    Proof.
      induction ps as [|[k v] ps IH]; intros s HI; [cbn; lia|]. cbn [lforM length fst snd].
      assert (Hm : Nat.log2 (length (d_items s)) <= Nat.log2 (length (d_items s) + Datatypes.S (length ps))) by (apply Nat.log2_le_mono; lia).
      apply Nat.le_trans with ((Nat.log2 (length (d_items s)) + 6) + length ps * (Nat.log2 (length (d_items s) + Datatypes.S (length ps)) + 6)); [|nia].
      apply calls_bind.
      - pose proof (sd_setitem_calls k v s HI). destruct (present k (d_items s)); lia.
      - intros [] s1 E. change (snd (sd_setitem_log eqb addlog k v s)) with (erase (sd_setitem_log eqb addlog k v) s) in E. rewrite (sd_setitem_erase T addlog Ha) in E.
        destruct (setitem_ok T ltb eqb fref dflt R ld HK k v s HI) as (s' & E' & Hd & HI' & _). rewrite E' in E. injection E as <-.
        etransitivity; [exact (IH s' HI')|]. apply Nat.mul_le_mono_l. apply Nat.add_le_mono_r. apply Nat.log2_le_mono.
        rewrite Hd. assert (length (store eqb k v (d_items s)) <= Datatypes.S (length (d_items s))); [|lia].
        pose proof (f_equal (@length A) (store_keys eqb k v (d_items s))) as El. rewrite map_length in El. rewrite El.
        destruct (lookup eqb k (d_items s)); rewrite ?app_length, map_length; cbn; lia.
    Qed.
    Lemma sd_update_calls a (s : SD) : DI s -> let k := length (match a with ADict ps => ps | APairs ps => d_of eqb ps end) in
      calls (sd_update_log eqb addlog a) s <= k * (Nat.log2 (length (d_items s) + k) + 6).
    Proof. intros HI k. apply sets_calls, HI. Qed.
  End Counts.
End Dicts.

(** ** The claims *)
Lemma set_of_length {V} (eqb : V -> V -> bool) l : length (set_of eqb l) <= length l.
Proof.
  unfold set_of. enough (H : forall l acc, length (set_union eqb acc l) <= length acc + length l) by (exact (H l [])).
  clear l. unfold set_union. induction l as [|x l IH]; intros acc; [cbn; lia|]. cbn [fold_left length]. etransitivity; [apply IH|].
  unfold set_add. destruct (set_mem eqb x acc); rewrite ?app_length; cbn; lia.
Qed.
Lemma merge_length {A B} (eqb : A -> A -> bool) (ps : list (A * B)) : forall d, length (merge eqb d ps) <= length d + length ps.
Proof.
  induction ps as [|[k v] ps IH]; intros d; [cbn; lia|]. cbn [merge length]. etransitivity; [apply IH|].
  pose proof (f_equal (@length A) (store_keys eqb k v d)) as El. rewrite map_length in El. rewrite El.
  destruct (lookup eqb k d); rewrite ?app_length, map_length; cbn; lia.
Qed.
Lemma lookup_held {A B} (eqb : A -> A -> bool) k (d : list (A * B)) :
  match lookup eqb k d with Some _ => true | None => false end = existsb (fun p => eqb (fst p) k) d.
Proof. rewrite <- d_mem_lookup. reflexivity. Qed.
Lemma plain_add_calls {V} (ltb eqb : V -> V -> bool) v c l : PR ltb c l -> calls (sl_add_log (total2 ltb) v) c <= Nat.log2 (length l) + 6.
Proof. intros [[H _] <-]. destruct (lshape_width c H) as [_ Hw]. pose proof (sl_add_calls (total2 ltb) v c). unfold contents. lia. Qed.
Lemma plain_remove_calls {V} (ltb eqb : V -> V -> bool) v c l : PR ltb c l -> calls (sl_remove_log (total2 ltb) (total2 eqb) v) c <= Nat.log2 (length l) + 7.
Proof. intros [[H _] <-]. destruct (lshape_width c H) as [_ Hw]. pose proof (sl_remove_calls (total2 ltb) (total2 eqb) v c). unfold contents. lia. Qed.
Lemma keyed_add_calls {V K} (key : V -> K) (kltb : K -> K -> bool) v s l : KR key kltb s l -> calls (skl_add_log (total2 kltb) (total1 key) v) s <= Nat.log2 (length l) + 6.
Proof. intros [[H _] <-]. pose proof (shape_width (total1 key) s H) as Hw. pose proof (skl_add_calls (total1 key) (total2 kltb) v s). unfold contents. lia. Qed.

Lemma c111_set : forall V K (ltb eqb : V -> V -> bool) dflt (ord : nat -> list V -> list V) s l v its,
  TotalOrder ltb eqb -> 1 <= dflt -> any_order ord ->
  let T := fun lt eq => plain (K:=K) lt eq dflt in
  ss_reach (T (total2 ltb) (total2 eqb)) eqb ord s -> ss_shows (T (total2 ltb) (total2 eqb)) s l ->
  let held := existsb (fun e => eqb e v) l in
  let k := length (concat (map (@items V) its)) in
  asks (total2 ltb) (total2 eqb) (fun lt _ => ss_add_log eqb (sl_add_log lt) v) (fun lt eq => ss_add (T lt eq) eqb v) s
    (if held then 0 else Nat.log2 (length l) + 6) /\
  asks (total2 ltb) (total2 eqb) (fun lt eq => ss_discard_log eqb (sl_remove_log lt eq) v) (fun lt eq => ss_discard (T lt eq) eqb v) s
    (if held then Nat.log2 (length l) + 7 else 0) /\
  asks (total2 ltb) (total2 eqb) (fun lt eq => ss_remove_log eqb (sl_remove_log lt eq) v) (fun lt eq => ss_remove (T lt eq) eqb v) s
    (if held then Nat.log2 (length l) + 7 else 0) /\
  (4 * k <= length l ->
    asks (total2 ltb) (total2 eqb) (fun lt _ => ss_update_log eqb ord (sl_add_log lt) its) (fun lt eq => ss_update (T lt eq) eqb ord its) s
      (k * (Nat.log2 (length l + k) + 6)) /\
    asks (total2 ltb) (total2 eqb) (fun lt eq => ss_difference_update_log eqb ord (sl_remove_log lt eq) its)
      (fun lt eq => ss_difference_update (T lt eq) eqb ord its) s (k * (Nat.log2 (length l) + 7))).
Proof.
  intros V K ltb eqb dflt ord s l v its HT Hd HO T HR HS held k. pose proof (plain_ok (K:=K) ltb eqb HT dflt Hd) as HK.
  pose proof (ss_shows_ok _ ltb eqb _ dflt _ _ HK ord HO s l HR HS) as HI.
  assert (Ea : forall lt eq v x, erase (sl_add_log lt v) x = l_add (T lt eq) v x) by (intros; apply sl_add_erase).
  assert (Er : forall lt eq v x, erase (sl_remove_log lt eq v) x = l_remove (T lt eq) v x) by (intros; apply sl_remove_erase).
  assert (Ca : forall v x l, PR ltb x l -> calls (sl_add_log (total2 ltb) v) x <= Nat.log2 (length l) + 6) by (intros; eapply plain_add_calls; eauto).
  assert (Cr : forall v x l, PR ltb x l -> calls (sl_remove_log (total2 ltb) (total2 eqb) v) x <= Nat.log2 (length l) + 7) by (intros; eapply plain_remove_calls; eauto).
  assert (Sa : forall lt' eq' v, stable (total2 ltb) (total2 eqb) lt' eq' (sl_add_log (total2 ltb) v) (sl_add_log lt' v)) by (intros; apply sl_add_stable).
  assert (Sr : forall lt' eq' v, stable (total2 ltb) (total2 eqb) lt' eq' (sl_remove_log (total2 ltb) (total2 eqb) v) (sl_remove_log lt' eq' v)) by (intros; apply sl_remove_stable).
  split; [|split; [|split]].
  - apply asks_from; [intros; apply (ss_add_erase eqb (T lt eq)), Ea|intros; apply ss_add_stable, Sa|].
    exact (ss_add_calls eqb (PR ltb) (sl_add_log (total2 ltb)) Ca v s l HI).
  - apply asks_from; [intros; apply (ss_discard_erase eqb (T lt eq)), Er|intros; apply ss_discard_stable, Sr|].
    exact (ss_discard_calls eqb (PR ltb) _ Cr v s l HI).
  - apply asks_from; [intros; apply (ss_remove_erase eqb (T lt eq)), Er|intros; apply ss_remove_stable, Sr|].
    exact (ss_remove_calls eqb (PR ltb) _ Cr v s l HI).
  - intros H4. pose proof (set_of_length eqb (concat (map (@items V) its))) as Hl. fold k in Hl.
    assert (Hn : length (s_set s) = length l) by (destruct HI as (_ & _ & HP); symmetry; apply Permutation_length; exact HP || (symmetry; exact HP)).
    split.
    + apply asks_from; [intros; apply (ss_update_erase eqb ord (T lt eq)); [apply Ea|lia]|intros; apply ss_update_stable, Sa|].
      etransitivity; [exact (ss_update_calls eqb ord (T _ _) ltb _ dflt _ _ HK HO _ (Ea _ _) Ca its s l HI)|].
      apply Nat.mul_le_mono; [exact Hl|]. apply Nat.add_le_mono_r, Nat.log2_le_mono. lia.
    + apply asks_from; [intros; apply (ss_difference_update_erase eqb ord (T lt eq)); [apply Er|lia]|intros; apply ss_difference_update_stable, Sr|].
      etransitivity; [exact (ss_difference_update_calls eqb ord (T _ _) ltb _ dflt _ _ HK HO _ (Er _ _) Cr its s l HI)|].
      apply Nat.mul_le_mono_r, Hl.
Qed.

Lemma c111_set_keyed : forall V K (key : V -> K) (kltb keqb : K -> K -> bool) (eqb : V -> V -> bool) dflt (ord : nat -> list V -> list V) s l v its,
  TotalOrder kltb keqb -> Equiv eqb -> EqCompat (by_key key kltb) eqb -> 1 <= dflt -> any_order ord ->
  let T := fun klt keq => keyed (total2 eqb) klt keq (total1 key) dflt in
  ss_reach (T (total2 kltb) (total2 keqb)) eqb ord s -> ss_shows (T (total2 kltb) (total2 keqb)) s l ->
  let k := length (concat (map (@items V) its)) in
  asks (total2 kltb) (total2 keqb) (fun klt _ => ss_add_log eqb (skl_add_log klt (total1 key)) v) (fun klt keq => ss_add (T klt keq) eqb v) s
    (if existsb (fun e => eqb e v) l then 0 else Nat.log2 (length l) + 6) /\
  (4 * k <= length l ->
    asks (total2 kltb) (total2 keqb) (fun klt _ => ss_update_log eqb ord (skl_add_log klt (total1 key)) its)
      (fun klt keq => ss_update (T klt keq) eqb ord its) s (k * (Nat.log2 (length l + k) + 6))).
Proof.
  intros V K key kltb keqb eqb dflt ord s l v its HT HE HC Hd HO T HR HS k. pose proof (keyed_ok key kltb keqb eqb HT HE HC dflt Hd) as HK.
  pose proof (ss_shows_ok _ _ eqb _ dflt _ _ HK ord HO s l HR HS) as HI.
  assert (Ea : forall lt eq v x, erase (skl_add_log lt (total1 key) v) x = l_add (T lt eq) v x) by (intros; apply skl_add_erase).
  assert (Ca : forall v x l, KR key kltb x l -> calls (skl_add_log (total2 kltb) (total1 key) v) x <= Nat.log2 (length l) + 6) by (intros; apply keyed_add_calls; auto).
  assert (Sa : forall lt' eq' v, stable (total2 kltb) (total2 keqb) lt' eq' (skl_add_log (total2 kltb) (total1 key) v) (skl_add_log lt' (total1 key) v)) by (intros; apply skl_add_stable).
  split.
  - apply asks_from; [intros; apply (ss_add_erase eqb (T lt eq)), Ea|intros; apply ss_add_stable, Sa|].
    exact (ss_add_calls eqb (KR key kltb) _ Ca v s l HI).
  - intros H4. pose proof (set_of_length eqb (concat (map (@items V) its))) as Hl. fold k in Hl.
    assert (Hn : length (s_set s) = length l) by (destruct HI as (_ & _ & HP); symmetry; apply Permutation_length; exact HP || (symmetry; exact HP)).
    apply asks_from; [intros; apply (ss_update_erase eqb ord (T lt eq)); [apply Ea|lia]|intros; apply ss_update_stable, Sa|].
    etransitivity; [exact (ss_update_calls eqb ord (T _ _) _ _ dflt _ _ HK HO _ (Ea _ _) Ca its s l HI)|].
    apply Nat.mul_le_mono; [exact Hl|]. apply Nat.add_le_mono_r, Nat.log2_le_mono. lia.
Qed.

Lemma given_length {A B} (eqb : A -> A -> bool) (a : darg A B) :
  length (match a with ADict ps => ps | APairs ps => d_of eqb ps end) <= length (pairs_of a).
Proof. destruct a as [ps|ps]; cbn [pairs_of]; [lia|]. unfold d_of. rewrite d_update_merge. exact (merge_length eqb ps []). Qed.
Lemma held_shown {A B} (ltb eqb : A -> A -> bool) k (d : list (A * B)) : SWO ltb -> existsb (fun p => eqb (fst p) k) (listing ltb d) = existsb (fun p => eqb (fst p) k) d.
Proof.
  intros HW. apply eq_true_iff_eq. rewrite !existsb_exists. split; intros (p & Hp & E); exists p; (split; [|exact E]); apply (listing_In ltb HW); exact Hp.
Qed.

Lemma c111_dict : forall A B K (ltb eqb : A -> A -> bool) (veqb : B -> B -> bool) dflt s l k v dv a,
  TotalOrder ltb eqb -> 1 <= dflt ->
  let T := fun lt eq => plain (K:=K) lt eq dflt in
  sd_reach (T (total2 ltb) (total2 eqb)) eqb veqb s -> sd_shows (T (total2 ltb) (total2 eqb)) eqb s l ->
  let held := existsb (fun p => eqb (fst p) k) l in
  let n := length (pairs_of a) in
  asks (total2 ltb) (total2 eqb) (fun lt _ => sd_setitem_log eqb (sl_add_log lt) k v) (fun lt eq => sd_setitem (T lt eq) eqb k v) s
    (if held then 0 else Nat.log2 (length l) + 6) /\
  asks (total2 ltb) (total2 eqb) (fun lt _ => sd_setdefault_log eqb (sl_add_log lt) k v) (fun lt eq => sd_setdefault (T lt eq) eqb k v) s
    (if held then 0 else Nat.log2 (length l) + 6) /\
  asks (total2 ltb) (total2 eqb) (fun lt eq => sd_delitem_log eqb (sl_remove_log lt eq) k) (fun lt eq => sd_delitem (T lt eq) eqb k) s
    (if held then Nat.log2 (length l) + 7 else 0) /\
  asks (total2 ltb) (total2 eqb) (fun lt eq => sd_pop_log eqb (sl_remove_log lt eq) k dv) (fun lt eq => sd_pop (T lt eq) eqb k dv) s
    (if held then Nat.log2 (length l) + 7 else 0) /\
  (l <> [] -> 10 * n <= length l ->
    asks (total2 ltb) (total2 eqb) (fun lt _ => sd_update_log eqb (sl_add_log lt) a) (fun lt eq => sd_update (T lt eq) eqb a) s
      (n * (Nat.log2 (length l + n) + 6))).
Proof.
  intros A B K ltb eqb veqb dflt s l k v dv a HT Hd T HR HS held n. pose proof (plain_ok (K:=K) ltb eqb HT dflt Hd) as HK.
  pose proof (sd_reach_ok _ ltb eqb veqb _ dflt _ _ HK s HR) as HI.
  pose proof (shows_unique _ eqb s _ _ HS (sd_shows_ok _ ltb eqb _ dflt _ _ HK s HI)) as El.
  assert (HW : SWO ltb) by exact (k_swo _ _ _ _ _ _ _ HK).
  assert (Hn : length (d_items s) = length l) by (rewrite El; symmetry; apply Permutation_length, (listing_perm ltb HW)).
  assert (Hh : present eqb k (d_items s) = held) by (unfold present, held; rewrite lookup_held, El; symmetry; apply held_shown, HW).
  assert (Ea : forall lt eq v x, erase (sl_add_log lt v) x = l_add (T lt eq) v x) by (intros; apply sl_add_erase).
  assert (Er : forall lt eq v x, erase (sl_remove_log lt eq v) x = l_remove (T lt eq) v x) by (intros; apply sl_remove_erase).
  assert (Ca : forall v x l, PR ltb x l -> calls (sl_add_log (total2 ltb) v) x <= Nat.log2 (length l) + 6) by (intros; eapply plain_add_calls; eauto).
  assert (Cr : forall v x l, PR ltb x l -> calls (sl_remove_log (total2 ltb) (total2 eqb) v) x <= Nat.log2 (length l) + 7) by (intros; eapply plain_remove_calls; eauto).
  assert (Sa : forall lt' eq' v, stable (total2 ltb) (total2 eqb) lt' eq' (sl_add_log (total2 ltb) v) (sl_add_log lt' v)) by (intros; apply sl_add_stable).
  assert (Sr : forall lt' eq' v, stable (total2 ltb) (total2 eqb) lt' eq' (sl_remove_log (total2 ltb) (total2 eqb) v) (sl_remove_log lt' eq' v)) by (intros; apply sl_remove_stable).
  rewrite <- Hn, <- Hh. split; [|split; [|split; [|split]]].
  - apply asks_from; [intros; apply (sd_setitem_erase eqb (T lt eq)), Ea|intros; apply sd_setitem_stable, Sa|].
    exact (sd_setitem_calls eqb _ ltb _ dflt _ _ HK _ Ca k v s HI).
  - apply asks_from; [intros; apply (sd_setdefault_erase eqb (T lt eq)), Ea|intros; apply sd_setdefault_stable, Sa|].
    exact (sd_setdefault_calls eqb _ ltb _ dflt _ _ HK _ Ca k v s HI).
  - apply asks_from; [intros; apply (sd_delitem_erase eqb (T lt eq)), Er|intros; apply sd_delitem_stable, Sr|].
    exact (sd_delitem_calls eqb _ ltb _ dflt _ _ HK _ Cr k s HI).
  - apply asks_from; [intros; apply (sd_pop_erase eqb (T lt eq)), Er|intros; apply sd_pop_stable, Sr|].
    exact (sd_pop_calls eqb _ ltb _ dflt _ _ HK _ Cr k dv s HI).
  - intros H0 H10. pose proof (given_length eqb a) as Hl. fold n in Hl.
    assert (H1 : d_items s <> []) by (intros E; rewrite E in Hn; destruct l; [apply H0; reflexivity|discriminate Hn]).
    apply asks_from; [intros; apply (sd_update_erase eqb (T lt eq)); [apply Ea|exact H1|lia]|intros; apply sd_update_stable, Sa|].
    etransitivity; [exact (sd_update_calls eqb _ ltb _ dflt _ _ HK _ (Ea _ _) Ca a s HI)|].
    apply Nat.mul_le_mono; [exact Hl|]. apply Nat.add_le_mono_r, Nat.log2_le_mono. lia.
Qed.

Lemma c111_dict_keyed : forall A B K (key : A -> K) (kltb keqb : K -> K -> bool) (eqb : A -> A -> bool) (veqb : B -> B -> bool) dflt s l k v a,
  TotalOrder kltb keqb -> Equiv eqb -> EqCompat (by_key key kltb) eqb -> 1 <= dflt ->
  let T := fun klt keq => keyed (total2 eqb) klt keq (total1 key) dflt in
  sd_reach (T (total2 kltb) (total2 keqb)) eqb veqb s -> sd_shows (T (total2 kltb) (total2 keqb)) eqb s l ->
  let held := existsb (fun p => eqb (fst p) k) l in
  let n := length (pairs_of a) in
  asks (total2 kltb) (total2 keqb) (fun klt _ => sd_setitem_log eqb (skl_add_log klt (total1 key)) k v)
    (fun klt keq => sd_setitem (T klt keq) eqb k v) s (if held then 0 else Nat.log2 (length l) + 6) /\
  asks (total2 kltb) (total2 keqb) (fun klt _ => sd_setdefault_log eqb (skl_add_log klt (total1 key)) k v)
    (fun klt keq => sd_setdefault (T klt keq) eqb k v) s (if held then 0 else Nat.log2 (length l) + 6) /\
  (l <> [] -> 10 * n <= length l ->
    asks (total2 kltb) (total2 keqb) (fun klt _ => sd_update_log eqb (skl_add_log klt (total1 key)) a)
      (fun klt keq => sd_update (T klt keq) eqb a) s (n * (Nat.log2 (length l + n) + 6))).
Proof.
  intros A B K key kltb keqb eqb veqb dflt s l k v a HT HE HC Hd T HR HS held n. pose proof (keyed_ok key kltb keqb eqb HT HE HC dflt Hd) as HK.
  set (ltb := by_key key kltb) in *.
  pose proof (sd_reach_ok _ ltb eqb veqb _ dflt _ _ HK s HR) as HI.
  pose proof (shows_unique _ eqb s _ _ HS (sd_shows_ok _ ltb eqb _ dflt _ _ HK s HI)) as El.
  assert (HW : SWO ltb) by exact (k_swo _ _ _ _ _ _ _ HK).
  assert (Hn : length (d_items s) = length l) by (rewrite El; symmetry; apply Permutation_length, (listing_perm ltb HW)).
  assert (Hh : present eqb k (d_items s) = held) by (unfold present, held; rewrite lookup_held, El; symmetry; apply held_shown, HW).
  assert (Ea : forall lt eq v x, erase (skl_add_log lt (total1 key) v) x = l_add (T lt eq) v x) by (intros; apply skl_add_erase).
  assert (Ca : forall v x l, KR key kltb x l -> calls (skl_add_log (total2 kltb) (total1 key) v) x <= Nat.log2 (length l) + 6) by (intros; apply keyed_add_calls; auto).
  assert (Sa : forall lt' eq' v, stable (total2 kltb) (total2 keqb) lt' eq' (skl_add_log (total2 kltb) (total1 key) v) (skl_add_log lt' (total1 key) v)) by (intros; apply skl_add_stable).
  rewrite <- Hn, <- Hh. split; [|split].
  - apply asks_from; [intros; apply (sd_setitem_erase eqb (T lt eq)), Ea|intros; apply sd_setitem_stable, Sa|].
    exact (sd_setitem_calls eqb _ ltb _ dflt _ _ HK _ Ca k v s HI).
  - apply asks_from; [intros; apply (sd_setdefault_erase eqb (T lt eq)), Ea|intros; apply sd_setdefault_stable, Sa|].
    exact (sd_setdefault_calls eqb _ ltb _ dflt _ _ HK _ Ca k v s HI).
  - intros H0 H10. pose proof (given_length eqb a) as Hl. fold n in Hl.
    assert (H1 : d_items s <> []) by (intros E; rewrite E in Hn; destruct l; [apply H0; reflexivity|discriminate Hn]).
    apply asks_from; [intros; apply (sd_update_erase eqb (T lt eq)); [apply Ea|exact H1|lia]|intros; apply sd_update_stable, Sa|].
    etransitivity; [exact (sd_update_calls eqb _ ltb _ dflt _ _ HK _ (Ea _ _) Ca a s HI)|].
    apply Nat.mul_le_mono; [exact Hl|]. apply Nat.add_le_mono_r, Nat.log2_le_mono. lia.
Qed.
