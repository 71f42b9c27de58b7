(** * The properties of the inherited operations of views *)
From Coq Require Import Permutation.
From Verif Require Import PyBase Model Spec History Reach BaseFacts SpecFacts HistFacts ListClass ClassSpec ClassFacts
  ModelSet SetSpec HashFacts SetFacts SetProps ModelDict DictSpec MapFacts DictFacts DictProps ModelView ViewSpec ViewFacts Concrete.
Local Unset Implicit Arguments.

Section Views.
  Context {S A B K : Type}.
  Variable T : listcls S A K.
  Variables ltb eqb : A -> A -> bool.
  Variable veqb : B -> B -> bool.
  Variable fref : fwd A K -> list A -> out A * list A.
  Variable dflt : nat.
  Hypothesis HC : list_class T ltb eqb fref dflt.
  Notation ls := (listing (B:=B) ltb).

  Lemma shown_sees s l R ld : ClsOK T ltb eqb fref dflt R ld -> sd_reach T eqb veqb s -> sd_shows T eqb s l ->
    DSees ltb eqb R s l.
  Proof.
    intros HK HR HS. pose proof (sd_reach_ok T ltb eqb veqb fref dflt R ld HK s HR) as HI. split; [exact HI|].
    pose proof (sd_shows_ok T ltb eqb fref dflt R ld HK s HI) as H. exact (shows_unique T eqb s _ _ H HS).
  Qed.
  Lemma sees_shown (s : sdict S A B) l R ld : ClsOK T ltb eqb fref dflt R ld -> DSees ltb eqb R s l -> sd_shows T eqb s l.
  Proof. intros HK [HI <-]. apply (sd_shows_ok T ltb eqb fref dflt R ld HK s HI). Qed.
  Lemma eqv : Equiv eqb.
  Proof. cls HC HK. apply (k_equiv _ _ _ _ _ _ _ HK). Qed.
  Lemma reach_step_as s o r s' : sd_reach T eqb veqb s -> dop_ok eqb o -> sd_step T eqb veqb o s = (r, s') -> sd_reach T eqb veqb s'.
  Proof. intros HR Ho E. pose proof (sd_reach_step T eqb veqb s o HR Ho) as H. rewrite E in H. exact H. Qed.
End Views.

(** Reachability can be added to what a view guarantees. *)
Lemma view_and {St X} (w : view St X) eqx Inv (P : St -> Prop) : ViewOK w eqx Inv ->
  (forall s i, P s -> P (snd (v_at w i s))) -> ViewOK w eqx (fun s l => P s /\ Inv s l).
Proof.
  intros [H1 H2 H3 H4] HP. split; try solve [intros; destruct H; auto].
  intros s l i [Hp HI]. destruct (H4 s l i HI) as (s' & E & HI'). exists s'. split; [exact E|]. split; [|exact HI'].
  specialize (HP s i Hp). rewrite E in HP. exact HP.
Qed.

Lemma dsee_state {S A B X} (inj : X -> dout A B) (m : M (sdict S A B) X) s : snd (dsee inj m s) = snd (m s).
Proof. unfold dsee. destruct (m s) as [[]]; reflexivity. Qed.

Lemma set_result {SN X KN} (N : listcls SN X KN) nltb eqx fref dflt R ld ord r P src : ClsOK N nltb eqx fref dflt R ld ->
  is_set N eqx R ord r P src -> ss_reach N eqx ord r /\
    exists l, ss_shows N r l /\ sorted nltb l /\ distinct eqx l /\ (forall x, member eqx x l <-> P x) /\ (forall x, In x l -> In x src).
Proof.
  intros HK (HR & l & HI & Hm & Hf). split; [exact HR|]. exists l. split; [apply (ss_iter_ok _ _ _ _ _ _ _ HK r l HI)|].
  split; [eapply sinv_sorted; eauto|]. split; [eapply sinv_distinct; eauto|]. split; assumption.
Qed.

Lemma item_equiv {A B} (eqb : A -> A -> bool) (veqb : B -> B -> bool) : Equiv eqb -> Equiv veqb -> Equiv (item_eqb eqb veqb).
Proof.
  intros [r1 s1 t1] [r2 s2 t2]. unfold item_eqb. split.
  - intros [x y]. cbn. rewrite r1, r2. reflexivity.
  - intros [x y] [x' y']. cbn. rewrite !andb_true_iff. intros [H H']. auto.
  - intros [x y] [x' y'] [x'' y'']. cbn. rewrite !andb_true_iff. intros [H H'] [G G']. eauto.
Qed.

(** ** C67 *)
Lemma c67_operators : forall S A B K KN (T : listcls S A K) ltb eqb (veqb : B -> B -> bool) fref dflt s l nltb ndflt ord op t a,
  list_class T ltb eqb fref dflt -> sd_reach T eqb veqb s -> sd_shows T eqb s l ->
  TotalOrder nltb eqb -> 1 <= ndflt -> any_order ord ->
  let N := plain (K:=KN) (total2 nltb) (total2 eqb) ndflt in
  exists r lr, mix_op (keys_view T eqb) N eqb ord op t a s = (Ok r, s) /\ ss_reach N eqb ord r /\ ss_shows N r lr /\
    sorted nltb lr /\ distinct eqb lr /\
    (forall k, member eqb k lr <-> vop_means op (member eqb k (map fst l)) (member eqb k (items a))) /\
    (forall k, In k lr -> In k (vop_source op (map fst l) (items a))).
Proof.
  intros S A B K KN T ltb eqb veqb fref dflt s l nltb ndflt ord op t a HC HR HS HT Hd HO N. cls HC HK.
  pose proof (plain_ok (K:=KN) nltb eqb HT ndflt Hd) as HN.
  pose proof (keys_view_ok (B:=B) T ltb eqb fref dflt R ld HK) as HV.
  destruct (mix_op_ok (keys_view (B:=B) T eqb) N nltb eqb _ _ _ _ HN ord HO _ HV op t a s (map fst l)) as (r & E & Hr).
  - exists l. split; [|reflexivity]. exact (shown_sees T ltb eqb veqb fref dflt s l R ld HK HR HS).
  - destruct (set_result N nltb eqb _ _ _ _ ord r _ _ HN Hr) as (H1 & lr & H2 & H3 & H4 & H5 & H6).
    exists r, lr. auto 10.
Qed.
Lemma c67_compare : forall S A B K (T : listcls S A K) ltb eqb (veqb : B -> B -> bool) fref dflt s l other,
  list_class T ltb eqb fref dflt -> sd_reach T eqb veqb s -> sd_shows T eqb s l ->
  (exists b, mix_isdisjoint (keys_view T eqb) other s = (Ok b, s) /\ (b = true <-> disjoint eqb (map fst l) other)) /\
  (distinct eqb other -> forall op, exists b, mix_compare (keys_view T eqb) eqb op other s = (Ok b, s) /\
     (b = true <-> set_cmp_means eqb op (map fst l) other)).
Proof.
  intros S A B K T ltb eqb veqb fref dflt s l other HC HR HS. pose proof (eqv T ltb eqb fref dflt HC) as HE. cls HC HK.
  pose proof (keys_view_ok (B:=B) T ltb eqb fref dflt R ld HK) as HV.
  pose proof (shown_sees T ltb eqb veqb fref dflt s l R ld HK HR HS) as HD.
  assert (HI : KSees ltb eqb R s (map fst l)) by (exists l; auto).
  split; [exact (mix_isdisjoint_ok _ eqb HE _ HV other s _ HI)|]. intros Ho op.
  apply (mix_compare_ok _ eqb HE _ HV op other s _ HI); [|exact Ho].
  destruct HD as [HD <-]. exact (keys_distinct T ltb eqb fref dflt R ld HK s HD).
Qed.

(** ** C68 *)
Lemma c68_operators : forall S A B K KN (T : listcls S A K) ltb eqb (veqb : B -> B -> bool) fref dflt s l nltb ndflt ord op t a,
  list_class T ltb eqb fref dflt -> sd_reach T eqb veqb s -> sd_shows T eqb s l ->
  TotalOrder nltb (item_eqb eqb veqb) -> 1 <= ndflt -> any_order ord ->
  let eqp := item_eqb eqb veqb in let N := plain (K:=KN) (total2 nltb) (total2 eqp) ndflt in
  exists r lr, mix_op (items_view T eqb veqb) N eqp ord op t a s = (Ok r, s) /\ ss_reach N eqp ord r /\ ss_shows N r lr /\
    sorted nltb lr /\ distinct eqp lr /\
    (forall p, member eqp p lr <-> vop_means op (member eqp p l) (member eqp p (items a))) /\
    (forall p, In p lr -> In p (vop_source op l (items a))).
Proof.
  intros S A B K KN T ltb eqb veqb fref dflt s l nltb ndflt ord op t a HC HR HS HT Hd HO eqp N. cls HC HK.
  pose proof (plain_ok (K:=KN) nltb eqp HT ndflt Hd) as HN.
  pose proof (items_view_ok T ltb eqb veqb fref dflt R ld HK) as HV.
  destruct (mix_op_ok (items_view T eqb veqb) N nltb eqp _ _ _ _ HN ord HO _ HV op t a s l) as (r & E & Hr).
  - exact (shown_sees T ltb eqb veqb fref dflt s l R ld HK HR HS).
  - destruct (set_result N nltb eqp _ _ _ _ ord r _ _ HN Hr) as (H1 & lr & H2 & H3 & H4 & H5 & H6).
    exists r, lr. auto 10.
Qed.
Lemma c68_compare : forall S A B K (T : listcls S A K) ltb eqb (veqb : B -> B -> bool) fref dflt s l other,
  list_class T ltb eqb fref dflt -> Equiv veqb -> sd_reach T eqb veqb s -> sd_shows T eqb s l ->
  let eqp := item_eqb eqb veqb in
  (exists b, mix_isdisjoint (items_view T eqb veqb) other s = (Ok b, s) /\ (b = true <-> disjoint eqp l other)) /\
  (distinct eqp other -> forall op, exists b, mix_compare (items_view T eqb veqb) eqp op other s = (Ok b, s) /\
     (b = true <-> set_cmp_means eqp op l other)).
Proof.
  intros S A B K T ltb eqb veqb fref dflt s l other HC HVE HR HS eqp.
  pose proof (item_equiv eqb veqb (eqv T ltb eqb fref dflt HC) HVE) as HE. cls HC HK.
  pose proof (items_view_ok T ltb eqb veqb fref dflt R ld HK) as HV.
  pose proof (shown_sees T ltb eqb veqb fref dflt s l R ld HK HR HS) as HD.
  split; [exact (mix_isdisjoint_ok _ eqp HE _ HV other s _ HD)|]. intros Ho op.
  apply (mix_compare_ok _ eqp HE _ HV op other s _ HD); [|exact Ho].
  exact (items_distinct T ltb eqb veqb fref dflt R ld HK s l HD).
Qed.

(** ** C69 *)
Section C69.
  Context {S A B K X : Type}.
  Variable T : listcls S A K.
  Variables ltb eqb : A -> A -> bool.
  Variable veqb : B -> B -> bool.
  Variable fref : fwd A K -> list A -> out A * list A.
  Variable dflt : nat.
  Variable R : S -> list A -> Prop.
  Variable ld : S -> nat.
  Hypothesis HK : ClsOK T ltb eqb fref dflt R ld.
  Variable w : view (sdict S A B) X.
  Variable eqx : X -> X -> bool.
  Variable f : A * B -> X.
  Variable o : Z -> dop A B K.
  Hypothesis Ho : forall i, dop_ok eqb (o i).
  Hypothesis Hs : forall i s, snd (sd_step T eqb veqb (o i) s) = snd (v_at w i s).
  Variable Inv : sdict S A B -> list X -> Prop.
  Hypothesis HV : ViewOK w eqx Inv.
  Hypothesis HI : forall s l, DSees ltb eqb R s l -> Inv s (map f l).
  Hypothesis HA : forall i s, DInv ltb eqb R s ->
    exists s', v_at w i s = (rmap f (getz (listing ltb (d_items s)) i), s') /\ d_items s' = d_items s /\ DInv ltb eqb R s'.

  Lemma position_ok x start stop s l : sd_reach T eqb veqb s -> sd_shows T eqb s l ->
    (exists r s', seq_index w eqx x start stop s = (r, s') /\ sd_reach T eqb veqb s' /\ sd_shows T eqb s' l /\
       first_index eqx x start stop (map f l) r) /\
    seq_count w eqx x s = (Ok (length (filter (fun y => eqx y x) (map f l))), s).
  Proof.
    intros HR HS. pose proof (shown_sees T ltb eqb veqb fref dflt s l R ld HK HR HS) as HD.
    assert (HV' : ViewOK w eqx (fun s' lx => (sd_reach T eqb veqb s' /\ DSees ltb eqb R s' l) /\ lx = map f l)).
    { split.
      - intros s' lx [[_ H] ->]. apply (vo_iter _ _ _ HV s' _ (HI s' l H)).
      - intros s' lx y [[_ H] ->]. apply (vo_in _ _ _ HV s' _ y (HI s' l H)).
      - intros s' lx [[_ H] ->]. apply (vo_len _ _ _ HV s' _ (HI s' l H)).
      - intros s' lx i [[H1 [H2 H3]] ->]. destruct (HA i s' H2) as (s'' & E & Ed & HI'').
        exists s''. rewrite getz_map. rewrite H3 in E. split; [exact E|]. split; [|reflexivity]. split.
        + pose proof (sd_reach_step T eqb veqb s' (o i) H1 (Ho i)) as H. rewrite Hs, E in H. exact H.
        + split; [exact HI''|]. rewrite Ed. exact H3. }
    split.
    - destruct (seq_index_ok _ eqx _ HV' x start stop s (map f l)) as (r & s' & E & ((H1 & H2) & _) & Hf); [auto|].
      exists r, s'. split; [exact E|]. split; [exact H1|]. split; [|exact Hf].
      exact (sees_shown T ltb eqb fref dflt s' l R ld HK H2).
    - exact (seq_count_ok _ eqx _ HV x s _ (HI s l HD)).
  Qed.
End C69.
Lemma leads_as {S A B K} (T : listcls S A K) ltb eqb R ld {X} (m : M (sdict S A B) X) s r d :
  leads ltb eqb R ld m s r d -> exists s', m s = (r, s') /\ d_items s' = d /\ DInv ltb eqb R s'.
Proof. intros (s' & E & Ed & HI & _). exists s'. auto. Qed.

Lemma c69_keys : forall S A B K (T : listcls S A K) ltb eqb (veqb : B -> B -> bool) fref dflt s l k start stop,
  list_class T ltb eqb fref dflt -> sd_reach T eqb veqb s -> sd_shows T eqb s l ->
  (exists r s', seq_index (keys_view T eqb) eqb k start stop s = (r, s') /\ sd_reach T eqb veqb s' /\ sd_shows T eqb s' l /\
     first_index eqb k start stop (map fst l) r) /\
  seq_count (keys_view T eqb) eqb k s = (Ok (length (filter (fun x => eqb x k) (map fst l))), s).
Proof.
  intros S A B K T ltb eqb veqb fref dflt s l k start stop HC HR HS. cls HC HK.
  apply (position_ok T ltb eqb veqb fref dflt R ld HK (keys_view T eqb) eqb fst (fun i => DKeyAt i)
    ltac:(intros; exact I) ltac:(intros; apply dsee_state) _ (keys_view_ok (B:=B) T ltb eqb fref dflt R ld HK)); auto.
  - intros s' l' H. exists l'. auto.
  - intros i s' H. eapply (leads_as T), (key_at _ _ _ _ _ _ _ HK i s' H).
Qed.
Lemma c69_items : forall S A B K (T : listcls S A K) ltb eqb (veqb : B -> B -> bool) fref dflt s l p start stop,
  list_class T ltb eqb fref dflt -> sd_reach T eqb veqb s -> sd_shows T eqb s l ->
  let eqp := item_eqb eqb veqb in
  (exists r s', seq_index (items_view T eqb veqb) eqp p start stop s = (r, s') /\ sd_reach T eqb veqb s' /\ sd_shows T eqb s' l /\
     first_index eqp p start stop l r) /\
  seq_count (items_view T eqb veqb) eqp p s = (Ok (length (filter (fun x => eqp x p) l)), s).
Proof.
  intros S A B K T ltb eqb veqb fref dflt s l p start stop HC HR HS eqp. cls HC HK.
  pose proof (position_ok T ltb eqb veqb fref dflt R ld HK (items_view T eqb veqb) eqp (fun p => p) (fun i => DItemAt i)
    ltac:(intros; exact I) ltac:(intros; apply dsee_state) _ (items_view_ok (B:=B) T ltb eqb veqb fref dflt R ld HK)) as H.
  assert (H1 : forall (s : sdict S A B) l, DSees ltb eqb R s l -> DSees ltb eqb R s (map (fun p => p) l)).
  { intros s' l' H'. rewrite map_id. exact H'. }
  specialize (H H1). clear H1.
  assert (H2 : forall i (s : sdict S A B), DInv ltb eqb R s -> exists s', v_at (items_view T eqb veqb) i s =
    (rmap (fun p => p) (getz (listing ltb (d_items s)) i), s') /\ d_items s' = d_items s /\ DInv ltb eqb R s').
  { intros i s' H'. pose proof (item_at _ _ _ _ _ _ _ HK i s' H') as HL. apply (leads_as T) in HL.
    destruct (getz (listing ltb (d_items s')) i); exact HL. }
  specialize (H H2 p start stop s l HR HS). rewrite map_id in H. exact H.
Qed.
Lemma c69_values : forall S A B K (T : listcls S A K) ltb eqb (veqb : B -> B -> bool) fref dflt s l v start stop,
  list_class T ltb eqb fref dflt -> sd_reach T eqb veqb s -> sd_shows T eqb s l ->
  (exists r s', seq_index (values_view T eqb veqb) veqb v start stop s = (r, s') /\ sd_reach T eqb veqb s' /\ sd_shows T eqb s' l /\
     first_index veqb v start stop (map snd l) r) /\
  seq_count (values_view T eqb veqb) veqb v s = (Ok (length (filter (fun x => veqb x v) (map snd l))), s).
Proof.
  intros S A B K T ltb eqb veqb fref dflt s l v start stop HC HR HS. cls HC HK.
  apply (position_ok T ltb eqb veqb fref dflt R ld HK (values_view T eqb veqb) veqb snd (fun i => DValueAt i)
    ltac:(intros; exact I) ltac:(intros; apply dsee_state) _ (values_view_ok (B:=B) T ltb eqb veqb fref dflt R ld HK)); auto.
  - intros s' l' H. exists l'. auto.
  - intros i s' H. eapply (leads_as T), (value_at _ _ _ _ _ _ _ HK i s' H).
Qed.

(** ** C70 *)
Lemma c70_keys_order_partial : forall A B K KN ltb eqb (veqb : B -> B -> bool) dflt (s : sdict (core A A) A B) l ndflt ord op t a,
  TotalOrder ltb eqb -> 1 <= dflt -> 1 <= ndflt -> any_order ord ->
  let T := plain (K:=K) (total2 ltb) (total2 eqb) dflt in let N := plain (K:=KN) (total2 ltb) (total2 eqb) ndflt in
  sd_reach T eqb veqb s -> sd_shows T eqb s l ->
  exists r lr, mix_op (keys_view T eqb) N eqb ord op t a s = (Ok r, s) /\ ss_shows N r lr /\ sorted ltb (map fst l) /\ sorted ltb lr.
Proof.
  intros A B K KN ltb eqb veqb dflt s l ndflt ord op t a HT Hd Hn HO T N HR HS.
  pose proof (class_plain (K:=K) HT Hd) as HC.
  destruct (c67_operators _ _ _ _ KN T ltb eqb veqb _ dflt s l ltb ndflt ord op t a HC HR HS HT Hn HO)
    as (r & lr & H1 & _ & H2 & H3 & _).
  exists r, lr. split; [exact H1|]. split; [exact H2|]. split; [|exact H3].
  destruct (c43_in_step _ _ _ _ T ltb eqb veqb _ dflt s HC HR) as (l' & HS' & Hsort & _).
  rewrite (shows_unique T eqb s l l' HS HS'). exact Hsort.
Qed.
Lemma c70_keys_order_refuted : ~ (forall S A B K KN (T : listcls S A K) ltb eqb (veqb : B -> B -> bool) fref dflt s l nltb ndflt ord op t a r lr,
  list_class T ltb eqb fref dflt -> sd_reach T eqb veqb s -> sd_shows T eqb s l ->
  TotalOrder nltb eqb -> 1 <= ndflt -> any_order ord ->
  let N := plain (K:=KN) (total2 nltb) (total2 eqb) ndflt in
  mix_op (keys_view T eqb) N eqb ord op t a s = (Ok r, s) -> ss_shows N r lr -> sorted ltb lr).
Proof.
  intros H.
  set (key := fun v => 10 - v). set (T := keyed (total2 Nat.eqb) (total2 Nat.ltb) (total2 Nat.eqb) (total1 key) 4).
  assert (HC : list_class T (by_key key Nat.ltb) Nat.eqb (fwd_keyed key Nat.ltb Nat.eqb) 4).
  { apply class_keyed; [exact nat_total| | |lia].
    - split; intros *; rewrite ?Nat.eqb_eq; congruence.
    - intros x y E. apply Nat.eqb_eq in E. subst y. unfold by_key. split; apply Nat.ltb_irrefl. }
  destruct (sd_new T Nat.eqb (APairs [(1, 1); (2, 2)])) as [s|e] eqn:Es; [|vm_compute in Es; discriminate].
  destruct (mix_op (KN:=nat) (keys_view T Nat.eqb) (plain (total2 Nat.ltb) (total2 Nat.eqb) 4) Nat.eqb (fun _ l => l) VOr 0 (AIter []) s)
    as [[r|e] s'] eqn:Er; [|vm_compute in Es, Er; injection Es as <-; vm_compute in Er; discriminate].
  assert (Hs : s' = s) by (vm_compute in Es, Er; injection Es as <-; vm_compute in Er; congruence). subst s'.
  specialize (H _ nat nat nat nat T _ Nat.eqb Nat.eqb _ 4 s [(2, 2); (1, 1)] Nat.ltb 4 (fun _ l => l) VOr 0 (AIter []) r [1; 2] HC).
  enough (Hb : sorted (by_key key Nat.ltb) [1; 2]).
  { unfold sorted in Hb. inversion Hb as [|? ? _ Hf]. inversion Hf as [|? ? He]. discriminate He. }
  apply H; clear H.
  - exists (APairs [(1, 1); (2, 2)]), s, []. split; [exact Es|]. split; [constructor|reflexivity].
  - vm_compute in Es. injection Es as <-. reflexivity.
  - exact nat_total.
  - lia.
  - intros n l. reflexivity.
  - exact Er.
  - vm_compute in Es. injection Es as <-. vm_compute in Er. injection Er as <-. reflexivity.
Qed.
Lemma c70_rsub_order_refuted : ~ (forall S V K KN (T : listcls S V K) ltb eqb fref dflt ord s l nltb ndflt t a r lr,
  list_class T ltb eqb fref dflt -> any_order ord -> ss_reach T eqb ord s -> ss_shows T s l ->
  TotalOrder nltb eqb -> 1 <= ndflt ->
  let N := plain (K:=KN) (total2 nltb) (total2 eqb) ndflt in
  mix_rsub (set_view T eqb) N eqb ord t a s = (Ok r, s) -> ss_shows N r lr -> sorted ltb lr).
Proof.
  intros H.
  set (key := fun v => 10 - v). set (T := keyed (total2 Nat.eqb) (total2 Nat.ltb) (total2 Nat.eqb) (total1 key) 4).
  assert (HC : list_class T (by_key key Nat.ltb) Nat.eqb (fwd_keyed key Nat.ltb Nat.eqb) 4).
  { apply class_keyed; [exact nat_total| | |lia].
    - split; intros *; rewrite ?Nat.eqb_eq; congruence.
    - intros x y E. apply Nat.eqb_eq in E. subst y. unfold by_key. split; apply Nat.ltb_irrefl. }
  destruct (ss_new T Nat.eqb (fun _ l => l) 0 (Some (AIter [3; 4]))) as [s|e] eqn:Es; [|vm_compute in Es; discriminate].
  destruct (mix_rsub (KN:=nat) (set_view T Nat.eqb) (plain (total2 Nat.ltb) (total2 Nat.eqb) 4) Nat.eqb (fun _ l => l) 0 (ASet [1; 2; 3]) s)
    as [[r|e] s'] eqn:Er; [|vm_compute in Es, Er; injection Es as <-; vm_compute in Er; discriminate].
  assert (Hs : s' = s) by (vm_compute in Es, Er; injection Es as <-; vm_compute in Er; congruence). subst s'.
  specialize (H _ nat nat nat T _ Nat.eqb _ 4 (fun _ l => l) s [4; 3] Nat.ltb 4 0 (ASet [1; 2; 3]) r [1; 2] HC).
  enough (Hb : sorted (by_key key Nat.ltb) [1; 2]).
  { unfold sorted in Hb. inversion Hb as [|? ? _ Hf]. inversion Hf as [|? ? He]. discriminate He. }
  apply H; clear H.
  - intros n l. reflexivity.
  - exists 0, (Some (AIter [3; 4])), s, []. split; [exact Es|]. split; [constructor|reflexivity].
  - vm_compute in Es. injection Es as <-. reflexivity.
  - exact nat_total.
  - lia.
  - exact Er.
  - vm_compute in Es. injection Es as <-. vm_compute in Er. injection Er as <-. reflexivity.
Qed.

(** ** C71 *)
Lemma c71_rsub : forall S V K KN (T : listcls S V K) ltb eqb fref dflt ord s l nltb ndflt t a,
  list_class T ltb eqb fref dflt -> any_order ord -> ss_reach T eqb ord s -> ss_shows T s l ->
  TotalOrder nltb eqb -> 1 <= ndflt ->
  let N := plain (K:=KN) (total2 nltb) (total2 eqb) ndflt in
  exists r lr, mix_rsub (set_view T eqb) N eqb ord t a s = (Ok r, s) /\ ss_reach N eqb ord r /\ ss_shows N r lr /\
    sorted nltb lr /\ distinct eqb lr /\
    (forall x, member eqb x lr <-> member eqb x (items a) /\ ~ member eqb x l) /\
    (forall x, In x lr -> In x (items a)).
Proof.
  intros S V K KN T ltb eqb fref dflt ord s l nltb ndflt t a HC HO HR HS HT Hd N. cls HC HK.
  pose proof (plain_ok (K:=KN) nltb eqb HT ndflt Hd) as HN.
  pose proof (set_view_ok T ltb eqb fref dflt R ld HK) as HV.
  destruct (mix_op_ok (set_view T eqb) N nltb eqb _ _ _ _ HN ord HO _ HV VRSub t a s l) as (r & E & Hr).
  - exact (ss_shows_ok T ltb eqb fref dflt R ld HK ord HO s l HR HS).
  - destruct (set_result N nltb eqb _ _ _ _ ord r _ _ HN Hr) as (H1 & lr & H2 & H3 & H4 & H5 & H6).
    exists r, lr. auto 10.
Qed.
