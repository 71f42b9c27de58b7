(** * Lemmas: which operations compare values *)
From Coq Require Import Permutation Lia.
From Verif Require Import PyBase Model Spec History BaseFacts SpecFacts SliceFacts Reach ListProps KeyProps ListClass ClassSpec ClassFacts
  ModelSet SetSpec HashFacts SetFacts SetProps ModelDict DictSpec MapFacts DictFacts DictProps OrderSpec OrderFacts.
Local Unset Implicit Arguments.

Record Quiet {S V K} (T0 T : listcls S V K) (R : S -> list V -> Prop) (kd : bool) : Prop := {
  q_new : forall it, length it <= 1 -> l_new T it = l_new T0 it;
  q_add : forall v s, R s [] -> l_add T v s = l_add T0 v s;
  q_update : forall it s, R s [] -> length it <= 1 -> l_update T it s = l_update T0 it s;
  q_clear : l_clear T = l_clear T0;
  q_pop : l_pop T = l_pop T0;
  q_get : l_get T = l_get T0;
  q_slice : l_slice T = l_slice T0;
  q_del : l_del T = l_del T0;
  q_iter : l_iter T = l_iter T0;
  q_reversed : l_reversed T = l_reversed T0;
  q_len : l_len T = l_len T0;
  q_del_slice : forall sl s l, R s l -> list_compares (LDelSlice sl) l = false -> l_del_slice T sl s = l_del_slice T0 sl s;
  q_fwd : forall f s l, R s l -> fwd_compares kd f l = false -> l_fwd T f s = l_fwd T0 f s }.
Record Loud {S V K} (e : exn) (T : listcls S V K) (R : S -> list V -> Prop) (kd : bool) : Prop := {
  b_new : forall it, 2 <= length it -> l_new T it = Err e;
  b_add : forall v s l, R s l -> l <> [] -> exists s', l_add T v s = (Err e, s');
  b_remove : forall v s l, R s l -> l <> [] -> exists s', l_remove T v s = (Err e, s');
  b_update : forall it s, 2 <= length it -> exists s', l_update T it s = (Err e, s');
  b_del_slice : forall sl s l, R s l -> list_compares (LDelSlice sl) l = true -> exists s', l_del_slice T sl s = (Err e, s');
  b_fwd : forall f s l, R s l -> fwd_compares kd f l = true -> fst (l_fwd T f s) = RExn e }.

Section PlainClass.
  Context {V K : Type}.
  Variables ltb eqb : V -> V -> bool.
  Variables lt eq : V -> V -> res bool.
  Variable dflt : nat.
  Lemma plain_quiet : Quiet (plain (K:=K) (total2 ltb) (total2 eqb) dflt) (plain lt eq dflt) (PR ltb) false.
  Proof.
    split; cbn [plain l_new l_add l_clear l_update l_pop l_get l_slice l_del l_del_slice l_iter l_reversed l_len l_fwd]; try reflexivity.
    - intros it H. apply p_new, H.
    - intros v c [[H _] E]. apply p_add. apply (p_nil c H E).
    - intros it c [[H _] E] Hi. apply p_update_nil; [apply (p_nil c H E)|exact Hi].
    - intros sl c l [[H _] <-] E. apply p_delslice; assumption.
    - intros f c l [[H _] <-] E. unfold fwd_compares in E. destruct (fwd_op f) as [o| | |]; [|reflexivity..]. apply p_quiet; assumption.
  Qed.
  Variable e : exn.
  Hypothesis Hlt : forall x y, lt x y = Err e.
  Hypothesis Heq : forall x y, eq x y = Err e.
  Lemma plain_loud : Loud e (plain (K:=K) lt eq dflt) (PR ltb) false.
  Proof.
    split; cbn [plain l_new l_add l_remove l_update l_del_slice l_fwd].
    - intros it H. apply (pr_new lt dflt e Hlt it H).
    - intros v c l [[H _] <-] E. apply (pr_add lt e Hlt v c H E).
    - intros v c l [[H _] <-] E. apply (pr_remove lt eq e Hlt v c H E).
    - intros it c H. apply (pr_sorted lt e Hlt it c H).
    - intros sl c l [[H _] <-] E. apply (pr_delslice lt e Hlt sl c H E).
    - intros f c l [[H _] <-] E. unfold fwd_compares in E. destruct (fwd_op f) as [o| | |]; try discriminate. apply (p_loud lt eq dflt e Hlt Heq o c H E).
  Qed.
End PlainClass.

Section KeyedClass.
  Context {V K : Type}.
  Variable key : V -> K.
  Variables kltb keqb : K -> K -> bool.
  Variable eqb : V -> V -> bool.
  Variable eq : V -> V -> res bool.
  Variables klt keq : K -> K -> res bool.
  Variable dflt : nat.
  Lemma keyed_quiet : Quiet (keyed (total2 eqb) (total2 kltb) (total2 keqb) (total1 key) dflt) (keyed eq klt keq (total1 key) dflt) (KR key kltb) true.
  Proof.
    split; cbn [keyed l_new l_add l_clear l_update l_pop l_get l_slice l_del l_del_slice l_iter l_reversed l_len l_fwd]; try reflexivity.
    - intros it H. apply y_new, H.
    - intros v s [[H _] E]. apply y_add. apply (y_nil key s H E).
    - intros it s [[H _] E] Hi. apply y_update_nil; [apply (y_nil key s H E)|exact Hi].
    - intros sl s l [[H _] <-] E. apply y_delslice; assumption.
    - intros f s l [[H _] <-] E. apply y_quiet; [exact H|]. unfold fwd_compares in E. destruct (fwd_op f); exact E.
  Qed.
  Variable e : exn.
  Hypothesis Hlt : forall x y, klt x y = Err e.
  Hypothesis Heq : forall x y, eq x y = Err e.
  Lemma keyed_loud : Loud e (keyed eq klt keq (total1 key) dflt) (KR key kltb) true.
  Proof.
    split; cbn [keyed l_new l_add l_remove l_update l_del_slice l_fwd].
    - intros it H. apply (yr_new key klt dflt e Hlt it H).
    - intros v s l [[H _] <-] E. apply (yr_add key klt e Hlt v s H E).
    - intros v s l [[H _] <-] E. apply (yr_remove key eq klt keq e Hlt v s H E).
    - intros it s H. apply (yr_sorted key klt e Hlt it s H).
    - intros sl s l [[H _] <-] E. apply (yr_delslice key klt e Hlt sl s H E).
    - intros f s l [[H _] <-] E. apply (y_loud key eq eq klt keq dflt e Hlt Heq (fwd_op f) s H). unfold fwd_compares in E. destruct (fwd_op f); exact E.
  Qed.
End KeyedClass.

Lemma changed_ok {V K} kd S (T0 T : listcls S V K) eqb : changed kd T0 T eqb ->
  exists ltb fref dflt R ld, ClsOK T0 ltb eqb fref dflt R ld /\ Quiet T0 T R kd.
Proof.
  intros H. destruct H as [ltb eqb lt eq dflt HT Hd|key kltb keqb eqb eq klt keq dflt HT HE HC Hd].
  - exists ltb, (fwd_plain ltb eqb), dflt, (PR ltb), (@load V V). split; [apply plain_ok; assumption|apply plain_quiet].
  - exists (by_key key kltb), (fwd_keyed key kltb eqb), dflt, (KR key kltb), (fun s => load (kc s)). split; [apply keyed_ok; assumption|apply keyed_quiet].
Qed.
Lemma raising_ok {V K} e kd S (T0 T : listcls S V K) eqb : raising e kd T0 T eqb ->
  exists ltb fref dflt R ld, ClsOK T0 ltb eqb fref dflt R ld /\ Quiet T0 T R kd /\ Loud e T R kd.
Proof.
  intros H. destruct H as [ltb eqb lt eq dflt HT Hd H1 H2|key kltb keqb eqb eq klt keq dflt HT HE HC Hd H1 H2 H3].
  - exists ltb, (fwd_plain ltb eqb), dflt, (PR ltb), (@load V V). split; [apply plain_ok; assumption|]. split; [apply plain_quiet|apply plain_loud; assumption].
  - exists (by_key key kltb), (fwd_keyed key kltb eqb), dflt, (KR key kltb), (fun s => load (kc s)). split; [apply keyed_ok; assumption|].
    split; [apply keyed_quiet|apply keyed_loud; assumption].
Qed.

Lemma compared_slice {V} sl (l : list V) : list_compares (LDelSlice sl) l = true -> exists vs, sp_slice sl l = Ok vs.
Proof.
  intros E. destruct (sp_slice_is sl l) as (vs & Ev & _); [|exists vs; exact Ev]. intros H. cbn [list_compares] in E. rewrite H in E. discriminate.
Qed.

(** ** SortedSet *)
Section Sets.
  Context {S V K : Type}.
  Variables T0 T : listcls S V K.
  Variables ltb eqb : V -> V -> bool.
  Variable fref : fwd V K -> list V -> out V * list V.
  Variable dflt : nat.
  Variable R : S -> list V -> Prop.
  Variable ld : S -> nat.
  Hypothesis HK : ClsOK T0 ltb eqb fref dflt R ld.
  Variable kd : bool.
  Hypothesis HQ : Quiet T0 T R kd.
  Variable ord : nat -> list V -> list V.
  Hypothesis HO : any_order ord.
  Notation SS := (sset S V).
  Notation SInv := (SInv eqb R).
  Let HE : Equiv eqb := k_equiv _ _ _ _ _ _ _ HK.

  Lemma onlist_same {A} (m m' : M S A) (s : SS) : m (s_list s) = m' (s_list s) -> onlist m s = onlist m' s.
  Proof. intros E. unfold onlist, zoom. rewrite E. reflexivity. Qed.
  Lemma ord_length n l : length (ord n l) = length l.
  Proof. apply Permutation_length, HO. Qed.
  Lemma sinv_length s l : SInv s l -> length (s_set s) = length l.
  Proof. intros (_ & _ & H). apply Permutation_length, H. Qed.

  Lemma add_same v s l : SInv s l -> negb (set_mem eqb v (s_set s)) && some l = false -> ss_add T eqb v s = ss_add T0 eqb v s.
  Proof.
    intros HI E. unfold ss_add, members, bind, get, ret. destruct (set_mem eqb v (s_set s)); [reflexivity|]. cbn [negb andb] in E.
    apply some_false in E. subst l. unfold put_set, modify. apply onlist_same. apply (q_add _ _ _ _ HQ). apply HI.
  Qed.
  Lemma relist_same s l : R (s_list s) l -> length (s_set s) <= 1 -> relist T ord s = relist T0 ord s.
  Proof.
    intros HR Hl. unfold relist. rewrite (q_clear _ _ _ _ HQ). unfold bind, onlist, zoom.
    destruct (k_clear _ _ _ _ _ _ _ HK _ _ HR) as (s1 & E1 & HR1 & _). rewrite E1. unfold members, visit, modify, get, ret, bind. cbn [s_list s_set s_tick].
    rewrite (q_update _ _ _ _ HQ _ _ HR1); [reflexivity|]. rewrite ord_length. exact Hl.
  Qed.
  Lemma adds_same (T' : listcls S V K) vs s : existsb (fun v => negb (set_mem eqb v (s_set s))) vs = false -> forM (ss_add T' eqb) vs s = (Ok tt, s).
  Proof.
    induction vs as [|v vs IH]; intros E; [reflexivity|]. cbn [existsb] in E. apply orb_false_iff in E as [E1 E2]. cbn [forM]. unfold bind at 1.
    unfold ss_add at 1, members, bind, get, ret. apply negb_false_iff in E1. rewrite E1. apply IH, E2.
  Qed.
  Lemma discards_same (T' : listcls S V K) vs s : existsb (fun v => set_mem eqb v (s_set s)) vs = false -> forM (ss_discard T' eqb) vs s = (Ok tt, s).
  Proof.
    induction vs as [|v vs IH]; intros E; [reflexivity|]. cbn [existsb] in E. apply orb_false_iff in E as [E1 E2]. cbn [forM]. unfold bind at 1.
    unfold ss_discard at 1, members, bind, get, ret. rewrite E1. apply IH, E2.
  Qed.
  Lemma existsb_ord {X} (f : X -> bool) l l' : Permutation l l' -> existsb f l = existsb f l'.
  Proof. intros H. induction H; cbn; auto; [rewrite IHPermutation; auto|rewrite !orb_assoc, (orb_comm (f y)); reflexivity|congruence]. Qed.
  Definition up (its : list (arg (V:=V))) (m : list V) : bool :=
    let vs := set_of eqb (concat (map (@items V) its)) in
    if length m <? 4 * length vs then many (set_union eqb m vs) else existsb (fun v => negb (set_mem eqb v m)) vs.
  Lemma update_same its s l : SInv s l -> up its (s_set s) = false -> ss_update T eqb ord its s = ss_update T0 eqb ord its s.
  Proof.
    intros HI E. unfold up in E. cbv zeta in E. unfold ss_update, members, bind, get, ret. cbv zeta. destruct (_ <? _).
    - unfold put_set, modify. eapply relist_same; [apply HI|]. apply many_false, E.
    - unfold visit, modify, get, ret, bind. rewrite !adds_same; [reflexivity|..]; cbn [s_set]; rewrite (existsb_ord _ _ _ (HO _ _)); exact E.
  Qed.
  Lemma fromset_same t x : length x <= 1 -> ss_fromset T ord t x = ss_fromset T0 ord t x.
  Proof. intros H. unfold ss_fromset. rewrite (q_new _ _ _ _ HQ); [reflexivity|]. rewrite ord_length. exact H. Qed.
  Lemma set_union_nil vs : distinct eqb vs -> set_union eqb [] vs = vs.
  Proof. intros H. rewrite (set_union_distinct eqb); [reflexivity|exact H]. Qed.
  Lemma up_nil a : up [a] [] = many (set_of eqb (items a)).
  Proof.
    unfold up. cbn [map concat]. rewrite app_nil_r. destruct (set_of_spec eqb HE (items a)) as (Hd & _). cbv zeta. rewrite (set_union_nil _ Hd).
    destruct (set_of eqb (items a)); reflexivity.
  Qed.
  Lemma new_same t a : many (set_of eqb (items a)) = false -> ss_new T eqb ord t (Some a) = ss_new T0 eqb ord t (Some a).
  Proof.
    intros H. unfold ss_new. rewrite (fromset_same t []) by (cbn; lia).
    destruct (ss_fromset_ok T0 ltb eqb fref dflt R ld HK ord HO t [] I) as (s0 & l0 & E & Hs & HI0 & _). rewrite E. cbn [rbind].
    rewrite (update_same [a] s0 l0 HI0); [reflexivity|]. rewrite Hs, up_nil. exact H.
  Qed.
  Lemma set_quiet o s l : SInv s l -> set_compares kd eqb o (s_set s) l = false -> ss_step T eqb ord o s = ss_step T0 eqb ord o s.
  Proof.
    intros HI E. pose proof HI as (HR & HD & HP).
    destruct o; cbn [ss_step]; cbn [set_compares] in E; try reflexivity; unfold observe, rebind.
    - rewrite (add_same v s l HI E). reflexivity.
    - unfold ss_discard, members, bind, get, ret. rewrite E. reflexivity.
    - unfold ss_remove, set_remove, members, bind, get, ret. rewrite E. reflexivity.
    - unfold ss_pop. rewrite (q_pop _ _ _ _ HQ). reflexivity.
    - unfold ss_clear. rewrite (q_clear _ _ _ _ HQ). reflexivity.
    - unfold ss_iter. rewrite (q_iter _ _ _ _ HQ). reflexivity.
    - unfold ss_reversed. rewrite (q_reversed _ _ _ _ HQ). reflexivity.
    - unfold ss_get. rewrite (q_get _ _ _ _ HQ). reflexivity.
    - unfold ss_slice. rewrite (q_slice _ _ _ _ HQ). reflexivity.
    - unfold ss_del. rewrite (q_get _ _ _ _ HQ), (q_del _ _ _ _ HQ). reflexivity.
    - unfold ss_del_slice. rewrite (q_slice _ _ _ _ HQ). unfold members, put_set, modify, get, ret, bind, onlist, zoom.
      destruct (k_slice _ _ _ _ _ _ _ HK sl _ _ HR) as (s1 & E1 & HR1 & _). rewrite E1. destruct (sp_slice sl l) as [vs|x]; [|reflexivity].
      cbn [s_list s_set s_tick]. rewrite (q_del_slice _ _ _ _ HQ sl s1 l HR1 E). reflexivity.
    - rewrite (update_same its s l HI E). reflexivity.
    - unfold ss_difference_update, members, bind, get, ret. cbv zeta. destruct (_ <? _).
      + unfold put_set, modify. rewrite (relist_same _ l); [reflexivity|exact HR|]. apply many_false, E.
      + unfold visit, modify, get, ret, bind. rewrite !discards_same; [reflexivity|..]; cbn [s_set]; rewrite (existsb_ord _ _ _ (HO _ _)); exact E.
    - unfold ss_intersection_update, members, bind, get, ret, put_set, modify. rewrite (relist_same _ l); [reflexivity|exact HR|]. apply many_false, E.
    - unfold ss_symmetric_difference_update, members, bind, get, ret, put_set, modify. rewrite (relist_same _ l); [reflexivity|exact HR|]. apply many_false, E.
    - unfold ss_union. rewrite (q_iter _ _ _ _ HQ). unfold bind, onlist, zoom. rewrite (k_iter _ _ _ _ _ _ _ HK _ _ HR).
      unfold fresh, bind, get, liftr. rewrite new_same; [reflexivity|exact E].
    - unfold ss_difference, members, fresh, bind, get, ret, liftr. rewrite fromset_same; [reflexivity|]. apply many_false, E.
    - unfold ss_intersection, members, fresh, bind, get, ret, liftr. rewrite fromset_same; [reflexivity|]. apply many_false, E.
    - unfold ss_symmetric_difference, members, fresh, bind, get, ret, liftr. rewrite fromset_same; [reflexivity|]. apply many_false, E.
    - unfold ss_copy, members, fresh, bind, get, ret, liftr. rewrite fromset_same; [reflexivity|]. apply many_false, E.
    - unfold ss_reduce, members, visit, fresh, modify, bind, get, ret, liftr. rewrite new_same; [reflexivity|]. cbn [items].
      rewrite (set_of_distinct eqb) by (eapply (distinct_perm eqb HE); [symmetry; apply HO|exact HD]). unfold many in *. rewrite ord_length. exact E.
    - unfold ss_fwd. rewrite (q_fwd _ _ _ _ HQ f _ _ HR E). reflexivity.
  Qed.

  Variable e : exn.
  Hypothesis HB : Loud e T R kd.
  Notation raises m s := (exists s', m s = (Err e, s')).

  Lemma onlist_raise {A} (m : M S A) (s : SS) : raises m (s_list s) -> raises (onlist m) s.
  Proof. intros (x & Ex). unfold onlist, zoom. rewrite Ex. eexists. reflexivity. Qed.
  Lemma add_raise v s l : SInv s l -> negb (set_mem eqb v (s_set s)) && some l = true -> raises (ss_add T eqb v) s.
  Proof.
    intros HI E. apply andb_true_iff in E as [E1 E2]. apply negb_true_iff in E1. unfold ss_add, members, bind, get, ret. rewrite E1. unfold put_set, modify.
    apply onlist_raise. apply (b_add _ _ _ _ HB v _ l (proj1 HI) (some_true _ E2)).
  Qed.
  Lemma mem_some s l v : SInv s l -> set_mem eqb v (s_set s) = true -> l <> [].
  Proof. intros HI E ->. apply (set_mem_iff eqb) in E. apply (sinv_mem eqb R s [] v HI) in E as (y & [] & _). Qed.
  Lemma discard_raise v s l : SInv s l -> set_mem eqb v (s_set s) = true -> raises (ss_discard T eqb v) s.
  Proof.
    intros HI E. unfold ss_discard, set_remove, members, bind, get, ret. rewrite !E. unfold put_set, modify.
    apply onlist_raise. apply (b_remove _ _ _ _ HB v _ l (proj1 HI) (mem_some s l v HI E)).
  Qed.
  Lemma remove_raise v s l : SInv s l -> set_mem eqb v (s_set s) = true -> raises (ss_remove T eqb v) s.
  Proof.
    intros HI E. unfold ss_remove, set_remove, members, bind, get, ret. rewrite !E. unfold put_set, modify.
    apply onlist_raise. apply (b_remove _ _ _ _ HB v _ l (proj1 HI) (mem_some s l v HI E)).
  Qed.
  Lemma relist_raise s l : R (s_list s) l -> 2 <= length (s_set s) -> raises (relist T ord) s.
  Proof.
    intros HR Hl. unfold relist. rewrite (q_clear _ _ _ _ HQ). unfold bind, onlist, zoom.
    destruct (k_clear _ _ _ _ _ _ _ HK _ _ HR) as (s1 & E1 & HR1 & _). rewrite E1. unfold members, visit, modify, get, ret, bind. cbn [s_list s_set s_tick].
    destruct (b_update _ _ _ _ HB (ord (s_tick s) (s_set s)) s1) as [s2 ->]; [rewrite ord_length; exact Hl|]. eexists. reflexivity.
  Qed.
  Lemma adds_raise vs s l : SInv s l -> l <> [] -> existsb (fun v => negb (set_mem eqb v (s_set s))) vs = true -> raises (forM (ss_add T eqb) vs) s.
  Proof.
    intros HI Hl. induction vs as [|v vs IH]; intros E; [discriminate|]. cbn [forM].
    destruct (set_mem eqb v (s_set s)) eqn:Ev.
    - cbn [existsb] in E. rewrite Ev in E. cbn [negb orb] in E. unfold bind at 1. unfold ss_add at 1, members, bind, get, ret. rewrite Ev. apply IH, E.
    - destruct (add_raise v s l HI) as [s' Es]; [rewrite Ev; destruct l; [congruence|reflexivity]|]. unfold bind. rewrite Es. eexists. reflexivity.
  Qed.
  Lemma discards_raise vs s l : SInv s l -> existsb (fun v => set_mem eqb v (s_set s)) vs = true -> raises (forM (ss_discard T eqb) vs) s.
  Proof.
    intros HI. induction vs as [|v vs IH]; intros E; [discriminate|]. cbn [forM].
    destruct (set_mem eqb v (s_set s)) eqn:Ev.
    - destruct (discard_raise v s l HI Ev) as [s' Es]. unfold bind. rewrite Es. eexists. reflexivity.
    - cbn [existsb] in E. rewrite Ev in E. cbn [orb] in E. unfold bind at 1. unfold ss_discard at 1, members, bind, get, ret. rewrite Ev. apply IH, E.
  Qed.
  Lemma update_raise its s l : SInv s l -> up its (s_set s) = true -> raises (ss_update T eqb ord its) s.
  Proof.
    intros HI E. unfold up in E. cbv zeta in E. unfold ss_update, members, bind, get, ret. cbv zeta. destruct (Nat.ltb_spec (length (s_set s)) (4 * length (set_of eqb (concat (map (@items V) its))))) as [H|H].
    - unfold put_set, modify. eapply relist_raise; [apply HI|]. apply many_true, E.
    - unfold visit, modify, get, ret, bind. apply (adds_raise _ _ l); [exact HI| |cbn [s_set]; rewrite (existsb_ord _ _ _ (HO _ _)); exact E].
      intros El. apply sinv_length in HI. rewrite El in HI. cbn in HI. destruct (set_of eqb (concat (map (@items V) its))); [discriminate|cbn in H; lia].
  Qed.
  Lemma fromset_raise t x : 2 <= length x -> ss_fromset T ord t x = Err e.
  Proof. intros H. unfold ss_fromset. rewrite (b_new _ _ _ _ HB); [reflexivity|]. rewrite ord_length. exact H. Qed.
  Lemma new_raise t a : many (set_of eqb (items a)) = true -> ss_new T eqb ord t (Some a) = Err e.
  Proof.
    intros H. unfold ss_new. rewrite (fromset_same t []) by (cbn; lia).
    destruct (ss_fromset_ok T0 ltb eqb fref dflt R ld HK ord HO t [] I) as (s0 & l0 & E & Hs & HI0 & _). rewrite E. cbn [rbind].
    destruct (update_raise [a] s0 l0 HI0) as [s1 ->]; [|reflexivity]. rewrite Hs, up_nil. exact H.
  Qed.
  Lemma set_loud o s l : SInv s l -> set_compares kd eqb o (s_set s) l = true -> fst (ss_step T eqb ord o s) = RExn e.
  Proof.
    intros HI E. pose proof HI as (HR & HD & HP).
    destruct o; cbn [ss_step]; cbn [set_compares] in E; try discriminate; unfold observe, rebind.
    - destruct (add_raise v s l HI E) as [s' ->]. reflexivity.
    - destruct (discard_raise v s l HI E) as [s' ->]. reflexivity.
    - destruct (remove_raise v s l HI E) as [s' ->]. reflexivity.
    - unfold ss_del_slice. rewrite (q_slice _ _ _ _ HQ). unfold members, put_set, modify, get, ret, bind, onlist, zoom.
      destruct (k_slice _ _ _ _ _ _ _ HK sl _ _ HR) as (s1 & E1 & HR1 & _). rewrite E1.
      destruct (compared_slice sl l E) as [vs ->].
      cbn [s_list s_set s_tick]. destruct (b_del_slice _ _ _ _ HB sl s1 l HR1 E) as [s' ->]. reflexivity.
    - destruct (update_raise its s l HI E) as [s' ->]. reflexivity.
    - unfold ss_difference_update, members, bind, get, ret. cbv zeta. destruct (_ <? _).
      + unfold put_set, modify. match goal with |- context [relist T ord ?s] => destruct (relist_raise s l HR (proj1 (many_true _) E)) as [s' ->] end. reflexivity.
      + unfold visit, modify, get, ret, bind.
        match goal with |- context [forM _ ?vs ?s1] => destruct (discards_raise vs s1 l) as [s' ->]; [exact HI| |reflexivity] end.
        cbn [s_set]. rewrite (existsb_ord _ _ _ (HO _ _)). exact E.
    - unfold ss_intersection_update, members, bind, get, ret, put_set, modify.
      match goal with |- context [relist T ord ?s] => destruct (relist_raise s l HR (proj1 (many_true _) E)) as [s' ->] end. reflexivity.
    - unfold ss_symmetric_difference_update, members, bind, get, ret, put_set, modify.
      match goal with |- context [relist T ord ?s] => destruct (relist_raise s l HR (proj1 (many_true _) E)) as [s' ->] end. reflexivity.
    - unfold ss_union. rewrite (q_iter _ _ _ _ HQ). unfold bind, onlist, zoom. rewrite (k_iter _ _ _ _ _ _ _ HK _ _ HR).
      unfold fresh, bind, get, liftr. rewrite new_raise; [reflexivity|exact E].
    - unfold ss_difference, members, fresh, bind, get, ret, liftr. rewrite fromset_raise; [reflexivity|]. apply many_true, E.
    - unfold ss_intersection, members, fresh, bind, get, ret, liftr. rewrite fromset_raise; [reflexivity|]. apply many_true, E.
    - unfold ss_symmetric_difference, members, fresh, bind, get, ret, liftr. rewrite fromset_raise; [reflexivity|]. apply many_true, E.
    - unfold ss_copy, members, fresh, bind, get, ret, liftr. rewrite fromset_raise; [reflexivity|]. apply many_true, E.
    - unfold ss_reduce, members, visit, fresh, modify, bind, get, ret, liftr. rewrite new_raise; [reflexivity|]. cbn [items].
      rewrite (set_of_distinct eqb) by (eapply (distinct_perm eqb HE); [symmetry; apply HO|exact HD]). unfold many in *. rewrite ord_length. exact E.
    - unfold ss_fwd. pose proof (b_fwd _ _ _ _ HB f _ _ HR E) as H. destruct (l_fwd T f (s_list s)). exact H.
  Qed.
End Sets.

(** ** SortedDict *)
Section Dicts.
  Context {S A B K : Type}.
  Variables T0 T : listcls S A K.
  Variables ltb eqb : A -> A -> bool.
  Variable veqb : B -> B -> bool.
  Variable fref : fwd A K -> list A -> out A * list A.
  Variable dflt : nat.
  Variable R : S -> list A -> Prop.
  Variable ld : S -> nat.
  Hypothesis HK : ClsOK T0 ltb eqb fref dflt R ld.
  Variable kd : bool.
  Hypothesis HQ : Quiet T0 T R kd.
  Notation SD := (sdict S A B).
  Notation DInv := (DInv ltb eqb R).
  Notation keys := (map (@fst A B)).
  Notation ls := (listing (B:=B) ltb).
  Let HE : Equiv eqb := k_equiv _ _ _ _ _ _ _ HK.
  Let HW : SWO ltb := k_swo _ _ _ _ _ _ _ HK.

  Lemma onkeys_same {X} (m m' : M S X) (s : SD) : m (d_list s) = m' (d_list s) -> onkeys m s = onkeys m' s.
  Proof. intros E. unfold onkeys, zoom. rewrite E. reflexivity. Qed.
  Lemma ls_nil (d : list (A * B)) : ls d = [] -> d = [].
  Proof. intros E. pose proof (listing_length ltb HW d) as H. rewrite E in H. destruct d; [reflexivity|discriminate]. Qed.
  Lemma ls_some (d : list (A * B)) : ls d <> [] -> keys (ls d) <> [].
  Proof. destruct (ls d); cbn; congruence. Qed.

  Lemma setitem_same k v (s : SD) : DInv s -> negb (d_mem eqb k (d_items s)) && some (ls (d_items s)) = false -> sd_setitem T eqb k v s = sd_setitem T0 eqb k v s.
  Proof.
    intros HI E. unfold sd_setitem, items_of, bind, get, ret. destruct (d_mem eqb k (d_items s)); [reflexivity|]. cbn [negb andb] in E. apply some_false in E.
    rewrite (onkeys_same (l_add T k) (l_add T0 k)); [reflexivity|]. apply (q_add _ _ _ _ HQ). destruct HI as [HI _]. rewrite E in HI. exact HI.
  Qed.
  Lemma keys_update_same d x : R x [] -> length d <= 1 -> keys_update (B:=B) T (mksd d x) = keys_update T0 (mksd d x).
  Proof.
    intros HR Hd. unfold keys_update, items_of, bind, get, ret. cbn [d_items]. apply onkeys_same. cbn [d_list]. apply (q_update _ _ _ _ HQ); [exact HR|].
    rewrite map_length. exact Hd.
  Qed.
  Definition dup (ps d : list (A * B)) : bool :=
    if length d <? 10 * length ps then many (d_update eqb d ps) else existsb (fun p => negb (d_mem eqb (fst p) d)) ps.
  Lemma d_of_of (ps d : list (A * B)) : d_update eqb d (d_of eqb ps) = d_update eqb d ps.
  Proof. unfold d_of. rewrite !(d_update_merge eqb). apply (merge_of eqb HE). Qed.
  Lemma d_mem_set k (d : list (A * B)) k' v : d_mem eqb k d = true -> d_mem eqb k (d_set eqb k' v d) = true.
  Proof.
    intros H. unfold d_mem in *. apply existsb_exists in H as (p & Hp & E). unfold d_set. destruct (d_mem eqb k' d).
    - apply existsb_exists. exists (if eqb (fst p) k' then (fst p, v) else p). split; [apply in_map_iff; exists p; auto|]. destruct (eqb (fst p) k'); exact E.
    - apply existsb_exists. exists p. split; [apply in_app_iff; auto|exact E].
  Qed.
  Lemma sets_same ps : forall s : SD, existsb (fun p => negb (d_mem eqb (fst p) (d_items s))) ps = false ->
    forM (fun p => sd_setitem T eqb (fst p) (snd p)) ps s = forM (fun p => sd_setitem T0 eqb (fst p) (snd p)) ps s.
  Proof.
    induction ps as [|p ps IH]; intros s E; [reflexivity|]. cbn [existsb] in E. apply orb_false_iff in E as [E1 E2]. apply negb_false_iff in E1.
    cbn [forM]. unfold bind. unfold sd_setitem at 1 3, items_of, bind, get, ret, put_items, modify. rewrite E1. apply IH. cbn [d_items].
    clear -E2. induction ps as [|q ps IH]; [reflexivity|]. cbn [existsb] in *. apply orb_false_iff in E2 as [E2 E3]. apply negb_false_iff in E2.
    rewrite (d_mem_set _ _ _ _ E2), (IH E3). reflexivity.
  Qed.
  Lemma dict_update_same a (s : SD) : DInv s -> real_dict eqb a -> dup (d_of eqb (pairs_of a)) (d_items s) = false ->
    sd_update T eqb a s = sd_update T0 eqb a s.
  Proof.
    intros HI Ha E. unfold dup in E. unfold sd_update, items_of, bind, get, ret.
    destruct (Nat.eqb_spec (length (d_items s)) 0) as [E0|E0].
    - unfold put_items, modify. apply keys_update_same.
      + destruct HI as [HI _]. apply length_zero_iff_nil in E0. rewrite E0 in HI. exact HI.
      + rewrite <- d_of_of. rewrite E0 in E. destruct (d_of eqb (pairs_of a)) as [|q qs] eqn:Eq; [cbn; lia|]. cbn [length Nat.mul Nat.add Nat.ltb Nat.leb] in E.
        apply many_false, E.
    - assert (Ep : match a with ADict ps => ps | APairs ps => d_of eqb ps end = d_of eqb (pairs_of a)) by (destruct a; [symmetry; exact Ha|reflexivity]).
      rewrite Ep. destruct (_ <? _).
      + rewrite (q_clear _ _ _ _ HQ). unfold put_items, modify, onkeys, zoom. cbn [d_list d_items].
        destruct (k_clear _ _ _ _ _ _ _ HK _ _ (proj1 HI)) as (s1 & E1 & HR1 & _). rewrite E1. apply keys_update_same; [exact HR1|]. apply many_false, E.
      + apply sets_same, E.
  Qed.
  Lemma dict_new_same a : many (d_of eqb (pairs_of a)) = false -> real_dict eqb a -> sd_new (B:=B) T eqb a = sd_new T0 eqb a.
  Proof.
    intros E Ha. unfold sd_new. rewrite (q_new _ _ _ _ HQ []) by (cbn; lia). destruct (k_new _ _ _ _ _ _ _ HK []) as (x & Ex & HR & _). rewrite Ex. cbn [rbind].
    rewrite (dict_update_same a (mksd [] x)); [reflexivity|split; [exact HR|exact I]|exact Ha|]. cbn [d_items]. unfold dup. rewrite d_of_of. fold (d_of eqb (pairs_of a)).
    destruct (d_of eqb (pairs_of a)) eqn:Eq; [reflexivity|]. cbn [length Nat.mul Nat.add Nat.ltb Nat.leb]. exact E.
  Qed.
  Lemma d_of_self (d : list (A * B)) : distinct_keys eqb d -> d_of eqb d = d.
  Proof. intros H. unfold d_of. rewrite (d_update_merge eqb). apply (merge_self eqb), H. Qed.

  Lemma dict_quiet o (s : SD) : DInv s -> real_dicts eqb o -> dict_compares kd eqb o (d_items s) (ls (d_items s)) = false ->
    sd_step T eqb veqb o s = sd_step T0 eqb veqb o s.
  Proof.
    intros HI Ha E. pose proof HI as [HR HD].
    assert (Eit : sd_items T eqb s = (Ok (ls (d_items s)), s)).
    { unfold sd_items, sd_iter. rewrite (q_iter _ _ _ _ HQ). exact (sd_items_ok T0 ltb eqb fref dflt R ld HK s HI). }
    pose proof (sd_items_ok T0 ltb eqb fref dflt R ld HK s HI) as Eit0.
    assert (Hls : distinct_keys eqb (ls (d_items s))) by (apply (listing_dk ltb eqb HW HE); exact HD).
    assert (Hlen : many (ls (d_items s)) = many (d_items s)) by (unfold many; rewrite (listing_length ltb HW); reflexivity).
    destruct o; cbn [sd_step]; cbn [dict_compares] in E; try reflexivity; unfold dsee, drebind.
    - rewrite (setitem_same k v s HI E). reflexivity.
    - unfold sd_delitem, dict_delitem, items_of, bind, get, ret. rewrite E. reflexivity.
    - unfold sd_iter. rewrite (q_iter _ _ _ _ HQ). reflexivity.
    - unfold sd_reversed. rewrite (q_reversed _ _ _ _ HQ). reflexivity.
    - unfold sd_clear. rewrite (q_clear _ _ _ _ HQ). reflexivity.
    - unfold sd_pop, items_of, bind, get, ret. rewrite E. reflexivity.
    - unfold sd_popitem. rewrite (q_pop _ _ _ _ HQ). reflexivity.
    - unfold sd_peekitem. rewrite (q_get _ _ _ _ HQ). reflexivity.
    - unfold sd_setdefault, items_of, bind, get, ret. destruct (d_mem eqb k (d_items s)); [reflexivity|]. cbn [negb andb] in E. apply some_false in E.
      unfold put_items, modify. rewrite (onkeys_same (l_add T k) (l_add T0 k)); [reflexivity|]. apply (q_add _ _ _ _ HQ). rewrite E in HR. exact HR.
    - rewrite (dict_update_same a s HI Ha E). reflexivity.
    - unfold sd_ior. rewrite (dict_update_same a s HI Ha E). reflexivity.
    - unfold sd_or, bind, liftr. rewrite Eit, Eit0, dict_new_same; [reflexivity|exact E|exact I].
    - unfold sd_ror, bind, liftr. rewrite Eit, Eit0, dict_new_same; [reflexivity|exact E|exact I].
    - unfold sd_copy, bind, liftr. rewrite Eit, Eit0, dict_new_same; [reflexivity| |exact I]. cbn [pairs_of]. rewrite (d_of_self _ Hls), Hlen. exact E.
    - unfold sd_reduce, items_of. destruct insertion; unfold bind, get, ret, liftr.
      + rewrite dict_new_same; [reflexivity|cbn [pairs_of]; rewrite (d_of_self _ HD); exact E|exact (d_of_self _ HD)].
      + rewrite Eit, Eit0, dict_new_same; [reflexivity|cbn [pairs_of]; rewrite (d_of_self _ Hls), Hlen; exact E|exact (d_of_self _ Hls)].
    - rewrite Eit, Eit0. reflexivity.
    - unfold sd_values, sd_iter. rewrite (q_iter _ _ _ _ HQ). reflexivity.
    - unfold iv_get. rewrite (q_get _ _ _ _ HQ). reflexivity.
    - unfold vv_get. rewrite (q_get _ _ _ _ HQ). reflexivity.
    - unfold kv_get. rewrite (q_get _ _ _ _ HQ). reflexivity.
    - unfold vv_contains, sd_values, sd_iter. rewrite (q_iter _ _ _ _ HQ). reflexivity.
    - unfold kv_get. rewrite (q_get _ _ _ _ HQ). reflexivity.
    - unfold iv_get. rewrite (q_get _ _ _ _ HQ). reflexivity.
    - unfold vv_get. rewrite (q_get _ _ _ _ HQ). reflexivity.
    - unfold kv_slice. rewrite (q_slice _ _ _ _ HQ). reflexivity.
    - unfold iv_slice. rewrite (q_slice _ _ _ _ HQ). reflexivity.
    - unfold vv_slice. rewrite (q_slice _ _ _ _ HQ). reflexivity.
    - unfold view_del. rewrite (q_pop _ _ _ _ HQ). reflexivity.
    - unfold view_del_slice. rewrite (q_slice _ _ _ _ HQ). unfold bind, onkeys, zoom.
      destruct (k_slice _ _ _ _ _ _ _ HK sl _ _ HR) as (s1 & E1 & HR1 & _). rewrite E1. destruct (sp_slice sl (keys (ls (d_items s)))) as [vs|x]; [|reflexivity].
      cbn [d_list d_items]. rewrite (q_del_slice _ _ _ _ HQ sl s1 _ HR1 E). reflexivity.
    - unfold sd_fwd. rewrite (q_fwd _ _ _ _ HQ f _ _ HR E). reflexivity.
  Qed.

  Variable e : exn.
  Hypothesis HB : Loud e T R kd.
  Notation raises m s := (exists s', m s = (Err e, s')).

  Lemma onkeys_raise {X} (m : M S X) (s : SD) : raises m (d_list s) -> raises (onkeys m) s.
  Proof. intros (x & Ex). unfold onkeys, zoom. rewrite Ex. eexists. reflexivity. Qed.
  Lemma dmem_some (s : SD) k : DInv s -> d_mem eqb k (d_items s) = true -> keys (ls (d_items s)) <> [].
  Proof. intros HI E. apply ls_some. intros H. rewrite (ls_nil _ H) in E. discriminate. Qed.
  Lemma setitem_raise k v (s : SD) : R (d_list s) (keys (ls (d_items s))) -> negb (d_mem eqb k (d_items s)) && some (ls (d_items s)) = true -> raises (sd_setitem T eqb k v) s.
  Proof.
    intros HR E. apply andb_true_iff in E as [E1 E2]. apply negb_true_iff in E1. unfold sd_setitem, items_of, bind, get, ret. rewrite E1.
    destruct (onkeys_raise (l_add T k) s) as [s' ->]; [apply (b_add _ _ _ _ HB k _ _ HR), ls_some, some_true, E2|]. eexists. reflexivity.
  Qed.
  Lemma keys_update_raise (d : list (A * B)) x : 2 <= length d -> raises (keys_update T) (mksd d x).
  Proof.
    intros H. unfold keys_update, items_of, bind, get, ret. cbn [d_items]. apply onkeys_raise. cbn [d_list]. apply (b_update _ _ _ _ HB). rewrite map_length. exact H.
  Qed.
  Lemma sets_raise ps : forall s : SD, DInv s -> ls (d_items s) <> [] -> existsb (fun p => negb (d_mem eqb (fst p) (d_items s))) ps = true ->
    raises (forM (fun p => sd_setitem T eqb (fst p) (snd p)) ps) s.
  Proof.
    induction ps as [|p ps IH]; intros s HI Hn E; [discriminate|]. cbn [forM]. destruct (d_mem eqb (fst p) (d_items s)) eqn:Ep.
    - cbn [existsb] in E. rewrite Ep in E. cbn [negb orb] in E.
      destruct (setitem_ok T0 ltb eqb fref dflt R ld HK (fst p) (snd p) s HI) as (s' & Es & Hd & HI' & _).
      assert (Es' : sd_setitem T eqb (fst p) (snd p) s = (Ok tt, s')). { rewrite setitem_same; [exact Es|exact HI|rewrite Ep; reflexivity]. }
      unfold bind. rewrite Es'. assert (Ed : d_items s' = d_set eqb (fst p) (snd p) (d_items s)).
      { revert Es. unfold sd_setitem, items_of, bind, get, ret, put_items, modify. rewrite Ep. intros [= <-]. reflexivity. }
      assert (Hlen : length (d_items s') = length (d_items s)). { rewrite Ed. unfold d_set. rewrite Ep. apply map_length. }
      apply IH; [exact HI'| |].
      + intros H. apply Hn. pose proof (listing_length ltb HW (d_items s)) as G. rewrite <- Hlen, (ls_nil _ H) in G. destruct (ls (d_items s)); [reflexivity|discriminate].
      + rewrite <- E. assert (Hm : forall k, d_mem eqb k (d_items s') = d_mem eqb k (d_items s)).
        { intros k. rewrite Ed. unfold d_set. rewrite Ep. unfold d_mem. clear. induction (d_items s) as [|q d IH]; [reflexivity|]. cbn [map existsb]. rewrite IH.
          destruct (eqb (fst q) (fst p)); reflexivity. }
        clear -Hm. induction ps as [|q ps IH]; [reflexivity|]. cbn [existsb]. rewrite Hm, IH. reflexivity.
    - destruct (setitem_raise (fst p) (snd p) s (proj1 HI)) as [s' Es]; [rewrite Ep; destruct (ls (d_items s)); [congruence|reflexivity]|].
      unfold bind. rewrite Es. eexists. reflexivity.
  Qed.
  Lemma dict_update_raise a (s : SD) : DInv s -> real_dict eqb a -> dup (d_of eqb (pairs_of a)) (d_items s) = true -> raises (sd_update T eqb a) s.
  Proof.
    intros HI Ha E. unfold dup in E. unfold sd_update, items_of, bind, get, ret.
    destruct (Nat.eqb_spec (length (d_items s)) 0) as [E0|E0].
    - unfold put_items, modify. apply keys_update_raise.
      rewrite <- d_of_of. rewrite E0 in E. destruct (d_of eqb (pairs_of a)) as [|q qs] eqn:Eq; [discriminate|]. cbn [length Nat.mul Nat.add Nat.ltb Nat.leb] in E.
      apply many_true, E.
    - assert (Ep : match a with ADict ps => ps | APairs ps => d_of eqb ps end = d_of eqb (pairs_of a)) by (destruct a; [symmetry; exact Ha|reflexivity]).
      rewrite Ep. destruct (_ <? _).
      + rewrite (q_clear _ _ _ _ HQ). unfold put_items, modify, onkeys, zoom. cbn [d_list d_items].
        destruct (k_clear _ _ _ _ _ _ _ HK _ _ (proj1 HI)) as (s1 & E1 & HR1 & _). rewrite E1. apply keys_update_raise. apply many_true, E.
      + apply sets_raise; [exact HI| |exact E]. intros H. rewrite (ls_nil _ H) in E0. apply E0. reflexivity.
  Qed.
  Lemma dict_new_raise a : many (d_of eqb (pairs_of a)) = true -> real_dict eqb a -> sd_new (B:=B) T eqb a = Err e.
  Proof.
    intros E Ha. unfold sd_new. rewrite (q_new _ _ _ _ HQ []) by (cbn; lia). destruct (k_new _ _ _ _ _ _ _ HK []) as (x & Ex & HR & _). rewrite Ex. cbn [rbind].
    destruct (dict_update_raise a (mksd [] x)) as [s' ->]; [split; [exact HR|exact I]|exact Ha| |reflexivity]. cbn [d_items]. unfold dup. rewrite d_of_of. fold (d_of eqb (pairs_of a)).
    destruct (d_of eqb (pairs_of a)) eqn:Eq; [discriminate|]. cbn [length Nat.mul Nat.add Nat.ltb Nat.leb]. exact E.
  Qed.
  Lemma dict_loud o (s : SD) : DInv s -> real_dicts eqb o -> dict_compares kd eqb o (d_items s) (ls (d_items s)) = true ->
    fst (sd_step T eqb veqb o s) = match o with DFwd _ => OFwd (RExn e) | _ => OExn e end.
  Proof.
    intros HI Ha E. pose proof HI as [HR HD].
    assert (Eit : sd_items T eqb s = (Ok (ls (d_items s)), s)).
    { unfold sd_items, sd_iter. rewrite (q_iter _ _ _ _ HQ). exact (sd_items_ok T0 ltb eqb fref dflt R ld HK s HI). }
    assert (Hls : distinct_keys eqb (ls (d_items s))) by (apply (listing_dk ltb eqb HW HE); exact HD).
    assert (Hlen : many (ls (d_items s)) = many (d_items s)) by (unfold many; rewrite (listing_length ltb HW); reflexivity).
    destruct o; cbn [sd_step]; cbn [dict_compares] in E; try discriminate; unfold dsee, drebind.
    - destruct (setitem_raise k v s HR E) as [s' ->]. reflexivity.
    - unfold sd_delitem, dict_delitem, items_of, bind, get, ret. rewrite E. unfold put_items, modify.
      match goal with |- context [onkeys (l_remove T k) ?s1] => destruct (onkeys_raise (l_remove T k) s1) as [s' ->]; [|reflexivity] end.
      apply (b_remove _ _ _ _ HB k _ _ HR), (dmem_some s k HI E).
    - unfold sd_pop, items_of, bind, get, ret. rewrite E.
      destruct (onkeys_raise (l_remove T k) s) as [s' ->]; [|reflexivity]. apply (b_remove _ _ _ _ HB k _ _ HR), (dmem_some s k HI E).
    - apply andb_true_iff in E as [E1 E2]. apply negb_true_iff in E1. unfold sd_setdefault, items_of, bind, get, ret. rewrite E1. unfold put_items, modify.
      match goal with |- context [onkeys (l_add T k) ?s1] => destruct (onkeys_raise (l_add T k) s1) as [s' ->]; [|reflexivity] end.
      apply (b_add _ _ _ _ HB k _ _ HR), ls_some, some_true, E2.
    - destruct (dict_update_raise a s HI Ha E) as [s' ->]. reflexivity.
    - unfold sd_ior. destruct (dict_update_raise a s HI Ha E) as [s' ->]. reflexivity.
    - unfold sd_or, bind, liftr. rewrite Eit, dict_new_raise; [reflexivity|exact E|exact I].
    - unfold sd_ror, bind, liftr. rewrite Eit, dict_new_raise; [reflexivity|exact E|exact I].
    - unfold sd_copy, bind, liftr. rewrite Eit, dict_new_raise; [reflexivity| |exact I]. cbn [pairs_of]. rewrite (d_of_self _ Hls), Hlen. exact E.
    - unfold sd_reduce, items_of. destruct insertion; unfold bind, get, ret, liftr.
      + rewrite dict_new_raise; [reflexivity|cbn [pairs_of]; rewrite (d_of_self _ HD); exact E|exact (d_of_self _ HD)].
      + rewrite Eit, dict_new_raise; [reflexivity|cbn [pairs_of]; rewrite (d_of_self _ Hls), Hlen; exact E|exact (d_of_self _ Hls)].
    - unfold view_del_slice. rewrite (q_slice _ _ _ _ HQ). unfold bind, onkeys, zoom.
      destruct (k_slice _ _ _ _ _ _ _ HK sl _ _ HR) as (s1 & E1 & HR1 & _). rewrite E1. destruct (compared_slice sl _ E) as [vs ->].
      cbn [d_list d_items]. destruct (b_del_slice _ _ _ _ HB sl s1 _ HR1 E) as [s' ->]. reflexivity.
    - unfold sd_fwd. pose proof (b_fwd _ _ _ _ HB f _ _ HR E) as H. destruct (l_fwd T f (d_list s)). cbn [fst] in *. rewrite H. reflexivity.
  Qed.
End Dicts.

(** ** The property *)
Lemma c106_list : forall V (ltb eqb : V -> V -> bool) lt eq dflt e c l o,
  TotalOrder ltb eqb -> 1 <= dflt -> sl_reach ltb eqb dflt c -> shows c l ->
  (list_compares o l = false -> sl_step lt eq dflt o c = sl_do ltb eqb dflt o c) /\
  (list_compares o l = true -> (forall x y, lt x y = Err e) -> (forall x y, eq x y = Err e) -> fst (sl_step lt eq dflt o c) = RExn e).
Proof.
  intros V ltb eqb lt eq dflt e c l o HT Hd HR Hl. pose proof (ListProps.reach_inv ltb eqb dflt HT Hd c HR) as [HS _]. apply shows_iff in Hl. subst l. split.
  - intros E. apply p_quiet; assumption.
  - intros E H1 H2. apply (p_loud lt eq dflt e H1 H2 o c HS E).
Qed.
Lemma c106_keylist : forall V K (key : V -> K) (kltb keqb : K -> K -> bool) (vltb eqb : V -> V -> bool) vlt eq klt keq dflt e s l o,
  TotalOrder kltb keqb -> EqCompat (by_key key kltb) eqb -> 1 <= dflt -> skl_reach key kltb keqb vltb eqb dflt s -> kshows s l ->
  (keylist_compares o l = false -> skl_step vlt eq klt keq (total1 key) dflt o s = skl_do key kltb keqb vltb eqb dflt o s) /\
  (keylist_compares o l = true -> (forall x y, klt x y = Err e) -> (forall x y, eq x y = Err e) ->
     fst (skl_step vlt eq klt keq (total1 key) dflt o s) = RExn e).
Proof.
  intros V K key kltb keqb vltb eqb vlt eq klt keq dflt e s l o HT HE Hd HR Hl. pose proof (kreach_inv key kltb keqb vltb eqb dflt HT HE Hd s HR) as [HS _].
  apply shows_iff in Hl. subst l. split.
  - intros E. apply y_quiet; assumption.
  - intros E H1 H2. apply (y_loud key vlt eq klt keq dflt e H1 H2 o s HS E).
Qed.
Lemma c106_set : forall V K kd S (T0 T : listcls S V K) eqb ord s l o,
  any_order ord -> ss_reach T0 eqb ord s -> ss_shows T0 s l ->
  (changed kd T0 T eqb -> set_compares kd eqb o (s_set s) l = false -> ss_step T eqb ord o s = ss_step T0 eqb ord o s) /\
  (forall e, raising e kd T0 T eqb -> set_compares kd eqb o (s_set s) l = true -> fst (ss_step T eqb ord o s) = RExn e).
Proof.
  intros V K kd S T0 T eqb ord s l o HO Hr Hs. split.
  - intros HC E. destruct (changed_ok kd S T0 T eqb HC) as (ltb & fref & dflt & R & ld & HK & HQ).
    pose proof (ss_shows_ok T0 ltb eqb fref dflt R ld HK ord HO s l Hr Hs) as HI.
    apply (set_quiet T0 T ltb eqb fref dflt R ld HK kd HQ ord HO o s l HI E).
  - intros e HC E. destruct (raising_ok e kd S T0 T eqb HC) as (ltb & fref & dflt & R & ld & HK & HQ & HB).
    pose proof (ss_shows_ok T0 ltb eqb fref dflt R ld HK ord HO s l Hr Hs) as HI.
    apply (set_loud T0 T ltb eqb fref dflt R ld HK kd HQ ord HO e HB o s l HI E).
Qed.
Lemma c106_dict : forall A B K kd S (T0 T : listcls S A K) eqb (veqb : B -> B -> bool) s l o,
  sd_reach T0 eqb veqb s -> sd_shows T0 eqb s l -> real_dicts eqb o ->
  (changed kd T0 T eqb -> dict_compares kd eqb o (d_items s) l = false -> sd_step T eqb veqb o s = sd_step T0 eqb veqb o s) /\
  (forall e, raising e kd T0 T eqb -> dict_compares kd eqb o (d_items s) l = true ->
     fst (sd_step T eqb veqb o s) = match o with DFwd _ => OFwd (RExn e) | _ => OExn e end).
Proof.
  intros A B K kd S T0 T eqb veqb s l o Hr Hs Ho. split.
  - intros HC E. destruct (changed_ok kd S T0 T eqb HC) as (ltb & fref & dflt & R & ld & HK & HQ).
    pose proof (sd_reach_ok T0 ltb eqb veqb fref dflt R ld HK s Hr) as HI.
    rewrite (shows_unique T0 eqb s l _ Hs (sd_shows_ok T0 ltb eqb fref dflt R ld HK s HI)) in E.
    apply (dict_quiet T0 T ltb eqb veqb fref dflt R ld HK kd HQ o s HI Ho E).
  - intros e HC E. destruct (raising_ok e kd S T0 T eqb HC) as (ltb & fref & dflt & R & ld & HK & HQ & HB).
    pose proof (sd_reach_ok T0 ltb eqb veqb fref dflt R ld HK s Hr) as HI.
    rewrite (shows_unique T0 eqb s l _ Hs (sd_shows_ok T0 ltb eqb fref dflt R ld HK s HI)) in E.
    apply (dict_loud T0 T ltb eqb veqb fref dflt R ld HK kd HQ e HB o s HI Ho E).
Qed.
