(** * Concrete SortedSets and SortedDicts built with comparisons that are no order *)
From Coq Require Import Permutation.
From Verif Require Import PyBase Model Spec History Reach Concrete ListClass ClassSpec ModelSet SetSpec HashFacts ConcreteSet
  ModelDict DictSpec ConcreteDict FaultSpec WildSpec ClassFacts.
Local Unset Implicit Arguments.

(** Comparisons of pairs: by the second component; reversed, and raising when a 5 is met; one that
    always answers yes. *)
Definition odd_lt (x y : pv) : res bool := Ok (snd x <? snd y).
Definition grumpy_lt (x y : pv) : res bool :=
  if (fst x =? 5) || (fst y =? 5) then Err TypeError else Ok (pltb y x).
Definition yes_lt (x y : pv) : res bool := Ok true.
Lemma peqb_equiv : Equiv peqb.
Proof. exact (to_equiv _ _ pair_total). Qed.

Section Chain.
  Context {S V K : Type}.
  Variable fam : listcls S V K -> Prop.
  Variable eqb : V -> V -> bool.
  Variable ord : nat -> list V -> list V.
  (** Boolean version of [scut]. *)
  Definition scutb (o : sop V K) (s : sset S V) (r : out V) : bool :=
    match o, r with
    | (SAdd _ | SDiscard _ | SUpdate _ | SDifferenceUpdate _ | SIntersectionUpdate _
      | SSymmetricDifferenceUpdate _ | SFwd (FReset _)), RExn _ => true
    | SRemove v, RExn _ => set_mem eqb v (s_set s)
    | SDelSlice sl, RExn _ => match s_step sl with Some 0%Z => false | _ => true end
    | _, _ => false
    end.
  Lemma scutb_ok o s r : scutb o s r = false -> ~ scut eqb o s r.
  Proof.
    destruct o, r; cbn; try discriminate; auto; try (destruct f; (discriminate || auto)).
    - intros H. apply set_mem_false, H.
    - intros H H1. destruct (s_step sl) as [[| |]|]; try discriminate. apply H1. reflexivity.
  Qed.
  Fixpoint chain (h : list (listcls S V K * sop V K)) (s : sset S V) : bool * sset S V :=
    match h with
    | [] => (true, s)
    | (T, o) :: h =>
        let (r, s') := ss_step T eqb ord o s in
        if scutb o s r then (false, s') else chain h s'
    end.
  Lemma chain_ok h : forall s s', wset_reach fam eqb ord s -> Forall (fun w => fam (fst w) /\ sop_ok (snd w)) h ->
    chain h s = (true, s') -> wset_reach fam eqb ord s'.
  Proof.
    induction h as [|[T o] h IH]; cbn [chain]; intros s s' HR HF E.
    - injection E as <-. exact HR.
    - inversion HF as [|? ? [H1 H2] H3]; subst. cbn in H1, H2. destruct (ss_step T eqb ord o s) as [r s1] eqn:E1.
      destruct (scutb o s r) eqn:Ec; [discriminate|]. apply (IH s1); [|exact H3|exact E].
      eapply wset_then; eauto. apply scutb_ok, Ec.
  Qed.
End Chain.
Section DChain.
  Context {S A B K : Type}.
  Variable fam : listcls S A K -> Prop.
  Variable eqb : A -> A -> bool.
  Variable veqb : B -> B -> bool.
  Definition dcutb (o : dop A B K) (s : sdict S A B) (r : dout A B) : bool :=
    match o, r with
    | DDel k, OExn _ => match lookup eqb k (d_items s) with Some _ => true | None => false end
    | (DSetDefault _ _ | DUpdate _ | DIOr _), OExn _ => true
    | DViewDelSlice sl, OExn _ => match s_step sl with Some 0%Z => false | _ => true end
    | DFwd (FReset _), OFwd (RExn _) => true
    | _, _ => false
    end.
  Lemma dcutb_ok o (s : sdict S A B) r : dcutb o s r = false -> ~ dcut eqb o s r.
  Proof.
    destruct o, r; cbn; try discriminate; auto; try (destruct f; auto; destruct r; (discriminate || auto); fail).
    - destruct (lookup eqb k (d_items s)); [discriminate|auto].
    - intros H H1. destruct (s_step sl) as [[| |]|]; try discriminate. apply H1. reflexivity.
  Qed.
  Fixpoint dchain (h : list (listcls S A K * dop A B K)) (s : sdict S A B) : bool * sdict S A B :=
    match h with
    | [] => (true, s)
    | (T, o) :: h =>
        let (r, s') := sd_step T eqb veqb o s in
        if dcutb o s r then (false, s') else dchain h s'
    end.
  Lemma dchain_ok h : forall (s s' : sdict S A B), wdict_reach fam eqb veqb s -> Forall (fun w => fam (fst w) /\ dop_ok eqb (snd w)) h ->
    dchain h s = (true, s') -> wdict_reach fam eqb veqb s'.
  Proof.
    induction h as [|[T o] h IH]; cbn [dchain]; intros s s' HR HF E.
    - injection E as <-. exact HR.
    - inversion HF as [|? ? [H1 H2] H3]; subst. cbn in H1, H2. destruct (sd_step T eqb veqb o s) as [r s1] eqn:E1.
      destruct (dcutb o s r) eqn:Ec; [discriminate|]. apply (IH s1); [|exact H3|exact E].
      eapply wdict_then; eauto. apply dcutb_ok, Ec.
  Qed.
End DChain.

(** Without a key function. *)
Definition wp (lt : pv -> pv -> res bool) : listcls (core pv pv) pv nat := plain lt (total2 peqb) 2.
Definition pfam : listcls (core pv pv) pv nat -> Prop := plain_class peqb 2.
Definition wset_ops : list (listcls (core pv pv) pv nat * sop pv nat) :=
  [(wp odd_lt, SUpdate [AIter [(3, 1); (9, 0); (3, 2); (7, 0); (1, 1); (5, 5); (2, 2)]]);
   (wp yes_lt, SAdd (4, 4)); (wp grumpy_lt, SCopy); (wp odd_lt, SAdd (8, 0)); (wp grumpy_lt, SGet 3);
   (wp odd_lt, SRemove (10, 0)); (wp yes_lt, SUpdate [AIter [(6, 6)]; ASet [(0, 0)]]); (wp odd_lt, SPop (-2)%Z)].
Definition wss : sset (core pv pv) pv := snd (chain peqb flip wset_ops (mksset [] (sl_init 2) 1)).
Definition wss_l : list pv := [(6, 6); (0, 0); (4, 4); (9, 0); (7, 0); (8, 0); (3, 1); (1, 1); (5, 5)].
Lemma wss_shows lt : ss_shows (wp lt) wss wss_l.
Proof. vm_compute. reflexivity. Qed.
Lemma wss_reach : wset_reach pfam peqb flip wss.
Proof.
  apply (chain_ok pfam peqb flip wset_ops (mksset [] (sl_init 2) 1)).
  - apply (wset_new pfam peqb flip (wp odd_lt) 0 None); [exists odd_lt; reflexivity|vm_compute; reflexivity].
  - repeat constructor; (cbn; try exact I); eexists; reflexivity.
  - vm_compute. reflexivity.
Qed.

(** With a key function that fails on the pairs with a 5. *)
Definition wkf (x : pv) : res nat := if fst x =? 5 then Err TypeError else Ok (fst x).
Definition klt_odd (x y : nat) : res bool := Ok (Nat.odd x).
Definition klt_grumpy (x y : nat) : res bool := if y =? 3 then Err TypeError else Ok (y <? x).
Definition wk (klt : nat -> nat -> res bool) : listcls (skl pv nat) pv nat := keyed (total2 pairb) klt (total2 Nat.eqb) wkf 2.
Definition kfam : listcls (skl pv nat) pv nat -> Prop := keyed_class pairb wkf 2.
Definition wkset_ops : list (listcls (skl pv nat) pv nat * sop pv nat) :=
  [(wk (total2 Nat.ltb), SUpdate [AIter [(3, 1); (9, 0); (3, 2); (7, 0); (1, 1); (3, 1); (2, 2)]]);
   (wk klt_odd, SAdd (4, 4)); (wk klt_grumpy, SCopy); (wk klt_odd, SAdd (8, 0)); (wk klt_grumpy, SDel 2)].
Definition wkss : sset (skl pv nat) pv := snd (chain pairb flip wkset_ops (mksset [] (skl_init 2) 1)).
Lemma wkss_reach : wset_reach kfam pairb flip wkss.
Proof.
  apply (chain_ok kfam pairb flip wkset_ops (mksset [] (skl_init 2) 1)).
  - apply (wset_new kfam pairb flip (wk klt_odd) 0 None); [exists klt_odd, (total2 Nat.eqb); reflexivity|vm_compute; reflexivity].
  - repeat constructor; (cbn; try exact I); eexists _, _; reflexivity.
  - vm_compute. reflexivity.
Qed.

(** Dicts. *)
Definition wdict_ops : list (listcls (core pv pv) pv nat * dop pv nat nat) :=
  [(wp odd_lt, DUpdate (APairs [((3, 1), 31); ((9, 0), 90); ((3, 2), 32); ((7, 0), 70); ((5, 5), 55); ((1, 1), 11)]));
   (wp grumpy_lt, DSet (5, 0) 50); (wp grumpy_lt, DPop (5, 0) None); (wp yes_lt, DSet (2, 0) 20); (wp odd_lt, DSetDefault (4, 0) 40);
   (wp grumpy_lt, DCopy); (wp grumpy_lt, DViewDel 1); (wp odd_lt, DSet (9, 3) 93)].
Definition wdd : sdict (core pv pv) pv nat := snd (dchain peqb Nat.eqb wdict_ops (mksd [] (sl_init 2))).
Lemma wdd_reach : wdict_reach pfam peqb Nat.eqb wdd.
Proof.
  apply (dchain_ok pfam peqb Nat.eqb wdict_ops (mksd [] (sl_init 2))).
  - apply (wdict_new pfam peqb Nat.eqb (wp odd_lt) (APairs [])); [exists odd_lt; reflexivity|vm_compute; reflexivity].
  - repeat constructor; (cbn; try exact I); eexists; reflexivity.
  - vm_compute. reflexivity.
Qed.
Definition wkdict_ops : list (listcls (skl pv nat) pv nat * dop pv nat nat) :=
  [(wk (total2 Nat.ltb), DUpdate (APairs [((3, 1), 31); ((9, 0), 90); ((3, 2), 32); ((7, 0), 70); ((1, 1), 11)]));
   (wk klt_odd, DSet (5, 0) 50); (wk klt_grumpy, DPop (3, 1) None); (wk klt_odd, DSet (2, 0) 20); (wk klt_odd, DSetDefault (4, 0) 40);
   (wk klt_grumpy, DCopy); (wk klt_odd, DViewDel 1)].
Definition wkdd : sdict (skl pv nat) pv nat := snd (dchain pairb Nat.eqb wkdict_ops (mksd [] (skl_init 2))).
Lemma wkdd_reach : wdict_reach kfam pairb Nat.eqb wkdd.
Proof.
  apply (dchain_ok kfam pairb Nat.eqb wkdict_ops (mksd [] (skl_init 2))).
  - apply (wdict_new kfam pairb Nat.eqb (wk klt_odd) (APairs [])); [exists klt_odd, (total2 Nat.eqb); reflexivity|vm_compute; reflexivity].
  - repeat constructor; (cbn; try exact I); eexists _, _; reflexivity.
  - vm_compute. reflexivity.
Qed.
