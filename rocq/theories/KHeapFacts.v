(** * Facts about SortedKeyLists on a heap: the notions of HeapFacts.v and HeapSim.v for objects with two lists of references *)
From Verif Require Import PyBase Model Spec History ModelHeap ModelKHeap HeapFacts HeapSim HeapSim2.
Local Unset Implicit Arguments.

(** Every list object the SortedKeyList uses. *)
Definition krefs {V} (o : khsl V) : list ref := rows (kbase o) ++ krows o.

(** ** Simulation of the value model by the heap model *)
Section Sim.
  Context {V : Type}.
  Notation ST := (heap V * khsl V)%type.

  Definition kgood (s : ST) : Prop := NoDup (krefs (snd s)) /\ Forall (fun r => r < length (fst s)) (krefs (snd s)).
  (** Of the first [n] lists only the object's own have changed, and of them no further ones are now its own. *)
  Definition kframen (n : nat) (s s' : ST) : Prop :=
    length (fst s) <= length (fst s') /\
    (forall r, r < n -> ~ In r (krefs (snd s)) -> cell (fst s') r = cell (fst s) r) /\
    (forall r, In r (krefs (snd s')) -> In r (krefs (snd s)) \/ n <= r).
  Definition kframe (s s' : ST) : Prop := kframen (length (fst s)) s s'.
  (** [hm] does what [m] does, and of the first [n] lists touches only the object's own. *)
  Definition ksim {A B} (n : nat) (P : ST -> Prop) (R : A -> B -> ST -> Prop) (m : M (skl V V) A) (hm : M ST B) : Prop :=
    forall s, kgood s -> n <= length (fst s) -> P s ->
      kview (snd (hm s)) = snd (m (kview s)) /\ kgood (snd (hm s)) /\ kframen n s (snd (hm s)) /\
      match fst (m (kview s)), fst (hm s) with
      | Ok a, Ok b => R a b (snd (hm s))
      | Err e, Err e' => e = e'
      | _, _ => False
      end.

  Lemma kframe_refl n s : kframen n s s.
  Proof. split; [lia|]. split; [reflexivity|]. intros r H. left. exact H. Qed.
  Lemma kframe_trans n s1 s2 s3 : kframen n s1 s2 -> kframen n s2 s3 -> kframen n s1 s3.
  Proof.
    intros (L1 & C1 & R1) (L2 & C2 & R2). split; [lia|]. split.
    - intros r Hr Hn. rewrite C2; [apply C1; assumption|lia|]. intros H. destruct (R1 r H); [contradiction|lia].
    - intros r H. destruct (R2 r H) as [H'|H']; [apply R1, H'|right; lia].
  Qed.
  Lemma kframe_le n k s s' : n <= k -> kframen k s s' -> kframen n s s'.
  Proof.
    intros H (L & C & R). split; [exact L|]. split; [intros r Hr; apply C; lia|]. intros r Hr. destruct (R r Hr); [left; assumption|right; lia].
  Qed.

  Lemma ksim_weaken {A B} n (P P' : ST -> Prop) (R R' : A -> B -> ST -> Prop) m hm :
    (forall s, P' s -> P s) -> (forall a b s, R a b s -> R' a b s) -> ksim n P R m hm -> ksim n P' R' m hm.
  Proof.
    intros HP HR H s HG Hn Hs. destruct (H s HG Hn (HP s Hs)) as (E & G & F & X). split; [exact E|]. split; [exact G|]. split; [exact F|].
    destruct (fst (m (kview s))), (fst (hm s)); auto.
  Qed.
  Lemma ksim_bind {A B A' B'} n (P : ST -> Prop) (R : A -> B -> ST -> Prop) (Q : A' -> B' -> ST -> Prop) m hm k hk :
    ksim n P R m hm -> (forall a b, ksim n (R a b) Q (k a) (hk b)) -> ksim n P Q (bind m k) (bind hm hk).
  Proof.
    intros H1 H2 s HG Hn Hs. specialize (H1 s HG Hn Hs). unfold bind. destruct (m (kview s)) as [r c], (hm s) as [r' s']. cbn in H1.
    destruct H1 as (E & G & F & X). destruct r as [a|e], r' as [b|e']; try contradiction.
    - subst c. destruct (H2 a b s' G ltac:(destruct F; lia) X) as (E' & G' & F' & X'). split; [exact E'|]. split; [exact G'|].
      split; [eapply kframe_trans; eassumption|exact X'].
    - cbn. split; [exact E|]. split; [exact G|]. split; [exact F|exact X].
  Qed.
  Definition kstable (Q : ST -> Prop) : Prop := forall s s', kgood s -> kframe s s' -> Q s -> Q s'.
  Lemma ksim_frame {A B} n (P Q : ST -> Prop) (R : A -> B -> ST -> Prop) m hm :
    kstable Q -> (forall k, ksim k P R m hm) -> ksim n (fun s => P s /\ Q s) (fun a b s => R a b s /\ Q s) m hm.
  Proof.
    intros HQ H s HG Hn [HP Hs]. destruct (H (length (fst s)) s HG (le_n _) HP) as (E & G & F & X). split; [exact E|]. split; [exact G|].
    split; [eapply kframe_le; [exact Hn|exact F]|]. pose proof (HQ _ _ HG F Hs). destruct (fst (m (kview s))), (fst (hm s)); auto.
  Qed.
  (** A method is looked at from its own start. *)
  Lemma ksim_start {A B} n (P : ST -> Prop) (R : A -> B -> ST -> Prop) m hm :
    (forall k, ksim k P R m hm) -> ksim n P R m hm.
  Proof. intros H. apply H. Qed.

  Definition kany : ST -> Prop := fun _ => True.
  Definition ksame {A} : A -> A -> ST -> Prop := fun a b _ => a = b.
  Local Notation ksim0 m hm := (forall n, ksim n kany ksame m hm).

  Lemma ksimn_bind {A A' B'} n (Q : A' -> B' -> ST -> Prop) (m : M (skl V V) A) hm k hk :
    ksim n kany ksame m hm -> (forall a, ksim n kany Q (k a) (hk a)) -> ksim n kany Q (bind m k) (bind hm hk).
  Proof.
    intros H1 H2. eapply ksim_bind; [exact H1|]. intros a b s HG Hn E. unfold ksame in E. subst b. exact (H2 a s HG Hn I).
  Qed.
  Lemma ksim0_bind {A B} (m : M (skl V V) A) hm (k : A -> M (skl V V) B) hk :
    ksim0 m hm -> (forall a, ksim0 (k a) (hk a)) -> ksim0 (bind m k) (bind hm hk).
  Proof. intros H1 H2 n. apply ksimn_bind; [apply H1|]. intros a. apply H2. Qed.
  (** A method is called while a condition on other lists holds. *)
  Lemma ksimP_bind {A A' B'} n (P : ST -> Prop) (Q : A' -> B' -> ST -> Prop) (m : M (skl V V) A) hm k hk :
    kstable P -> ksim0 m hm -> (forall a, ksim n P Q (k a) (hk a)) -> ksim n P Q (bind m k) (bind hm hk).
  Proof.
    intros HS H1 H2. eapply ksim_bind with (R := fun a b s => ksame a b s /\ P s).
    - eapply ksim_weaken; [| |apply (ksim_frame n kany P _ _ _ HS H1)]; [intros s H; split; [exact I|exact H]|auto].
    - intros a b s HG Hn [E HP]. unfold ksame in E. subst b. exact (H2 a s HG Hn HP).
  Qed.
  Lemma ksim_any {A B} n (P : ST -> Prop) (R : A -> B -> ST -> Prop) m hm : ksim n kany R m hm -> ksim n P R m hm.
  Proof. intros H s HG Hn _. exact (H s HG Hn I). Qed.
  Lemma ksim_point {A B} n (P : ST -> Prop) (R : A -> B -> ST -> Prop) m m' hm hm' :
    (forall c, m c = m' c) -> (forall s, hm s = hm' s) -> ksim n P R m' hm' -> ksim n P R m hm.
  Proof. intros E1 E2 H s HG Hn HP. rewrite E1, E2. exact (H s HG Hn HP). Qed.

  Lemma ksim_liftr {A} (r : res A) : ksim0 (liftr r) (liftr r).
  Proof.
    intros n s HG _ _. cbn. split; [reflexivity|]. split; [exact HG|]. split; [apply kframe_refl|]. destruct r; reflexivity.
  Qed.
  Lemma ksim_ret {A} (a : A) : ksim0 (ret a) (ret a).
  Proof. apply (ksim_liftr (Ok a)). Qed.
  Lemma ksim_raise {A} e : ksim0 (raise (A:=A) e) (raise e).
  Proof. apply (ksim_liftr (Err e)). Qed.
  Lemma ksim_modifyR {B} n (P : ST -> Prop) (R : unit -> B -> ST -> Prop) f (hm : M ST B) :
    (forall s, kgood s -> n <= length (fst s) -> P s ->
       match f (kview s), hm s with
       | Ok c, (Ok b, s') => kview s' = c /\ kgood s' /\ kframen n s s' /\ R tt b s'
       | Err e, (Err e', s') => e = e' /\ s' = s
       | _, _ => False
       end) -> ksim n P R (modifyR f) hm.
  Proof.
    intros H s HG Hn HP. specialize (H s HG Hn HP). unfold modifyR. destruct (f (kview s)) as [c|e], (hm s) as [[b|e'] s']; cbn; try contradiction.
    - exact H.
    - destruct H as [-> ->]. split; [reflexivity|]. split; [exact HG|]. split; [apply kframe_refl|reflexivity].
  Qed.

  (** ** Methods that only read the lists *)
  Definition klists (s : skl V V) : list (list V) * list (list V) := (lists (kc s), keys s).
  Definition kkeeps {A} (m : M (skl V V) A) : Prop := forall c, klists (snd (m c)) = klists c.
  Lemma kview_put c (s : ST) : klists c = klists (kview s) -> kview (kput c s) = c.
  Proof. destruct s as [h [b ks]], c as [[ls ms ix of ln ld] kk]. unfold klists. cbn. intros E. injection E as -> ->. reflexivity. Qed.
  Lemma kput_frame n c (s : ST) : kframen n s (kput c s).
  Proof. destruct s as [h o]. split; [cbn; lia|]. split; [reflexivity|]. intros r H. left. exact H. Qed.
  Lemma kput_good c (s : ST) : kgood s -> kgood (kput c s).
  Proof. destruct s as [h o]. auto. Qed.
  Lemma ksim_reading {A} (m : M (skl V V) A) : kkeeps m -> ksim0 m (kreading m).
  Proof.
    intros H n s HG _ _. unfold kreading, zoom. specialize (H (kview s)). destruct (m (kview s)) as [r c]. cbn [fst snd] in *.
    split; [apply kview_put, H|]. split; [apply kput_good, HG|]. split; [apply kput_frame|destruct r; reflexivity].
  Qed.

  Lemma kkeeps_bind {A B} (m : M (skl V V) A) (k : A -> M (skl V V) B) : kkeeps m -> (forall a, kkeeps (k a)) -> kkeeps (bind m k).
  Proof.
    intros H1 H2 c. unfold bind. specialize (H1 c). destruct (m c) as [[a|e] c']; cbn in *; [|exact H1]. rewrite H2. exact H1.
  Qed.
  Lemma kkeeps_ret {A} (a : A) : kkeeps (ret a). Proof. intros c. reflexivity. Qed.
  Lemma kkeeps_raise {A} e : kkeeps (raise (A:=A) e). Proof. intros c. reflexivity. Qed.
  Lemma kkeeps_liftr {A} (r : res A) : kkeeps (liftr r). Proof. intros c. reflexivity. Qed.
  Lemma kkeeps_get : kkeeps get. Proof. intros c. reflexivity. Qed.
  Lemma kkeeps_modify f : (forall c, lists (f c) = lists c) -> kkeeps (modify (on_kc f)).
  Proof. intros H c. unfold klists. cbn. rewrite H. reflexivity. Qed.
  Lemma kkeeps_modifyR f : (forall c c', f c = Ok c' -> klists c' = klists c) -> kkeeps (modifyR f).
  Proof. intros H c. unfold modifyR. destruct (f c) as [c'|e] eqn:E; cbn [snd]; [apply H, E|reflexivity]. Qed.
  Lemma kkeeps_oncore lt kf {A} (m : M (core V V) A) : keeps m -> kkeeps (oncore (skl_vt lt kf) m).
  Proof. intros H [c ks]. unfold oncore, zoom. cbn. specialize (H c). destruct (m c) as [r c']. unfold klists. cbn in *. congruence. Qed.
End Sim.
Notation ksim0 m hm := (forall n, ksim n kany ksame m hm).

Lemma nodup_l {A} (l m : list A) : NoDup (l ++ m) -> NoDup l.
Proof.
  induction l as [|y l IH]; intros HN; [constructor|]. inversion HN; subst. constructor; [|apply IH; assumption].
  intros H. apply H1. apply in_app_iff. left. exact H.
Qed.
Lemma nodup_r {A} (l m : list A) : NoDup (l ++ m) -> NoDup m.
Proof. induction l as [|y l IH]; intros HN; [exact HN|]. inversion HN; subst. apply IH. assumption. Qed.

Section Writers.
  Context {V : Type}.
  Notation ST := (heap V * khsl V)%type.

  (** [b] is a list of its own, with content [v], made after there were [n] lists. *)
  Definition knewlist (n : nat) (v : list V) (b : ref) (s : ST) : Prop :=
    cell (fst s) b = v /\ b < length (fst s) /\ ~ In b (krefs (snd s)) /\ n <= b.
  Lemma knewlist_stable n v b : kstable (knewlist n v b).
  Proof.
    intros s s' HG (L & C & R) (E & Hb & Hn & Hnb). split; [rewrite C by assumption; exact E|]. split; [lia|]. split; [|exact Hnb].
    intros H. destruct (R b H); [contradiction|lia].
  Qed.
  Lemma kstable_and (P Q : ST -> Prop) : kstable P -> kstable Q -> kstable (fun s => P s /\ Q s).
  Proof. intros HP HQ s s' HG F [A B]. split; [exact (HP s s' HG F A)|exact (HQ s s' HG F B)]. Qed.
  Lemma kany_stable : kstable (kany (V:=V)). Proof. intros s s' _ _ _. exact I. Qed.
  (** ** Steps of the heap program alone *)
  Definition khdo {B} (n : nat) (P : ST -> Prop) (hm : M ST B) (R : B -> ST -> Prop) : Prop :=
    forall s, kgood s -> n <= length (fst s) -> P s ->
      exists b s', hm s = (Ok b, s') /\ kview s' = kview s /\ kgood s' /\ kframen n s s' /\ R b s'.
  Lemma ksim_hstep {A B C} n (P : ST -> Prop) (R : B -> ST -> Prop) (Q : A -> C -> ST -> Prop) m hm hk :
    khdo n P hm R -> (forall b, ksim n (R b) Q m (hk b)) -> ksim n P Q m (bind hm hk).
  Proof.
    intros H1 H2 s HG Hn HP. destruct (H1 s HG Hn HP) as (b & s' & E & Ev & G & F & X). unfold bind. rewrite E.
    destruct (H2 b s' G ltac:(destruct F; lia) X) as (E' & G' & F' & X'). rewrite Ev in E', X'. split; [exact E'|]. split; [exact G'|].
    split; [eapply kframe_trans; eassumption|exact X'].
  Qed.
  Lemma khdo_frame {B} n (P Q : ST -> Prop) (hm : M ST B) R : kstable Q -> (forall k, khdo k P hm R) ->
    khdo n (fun s => P s /\ Q s) hm (fun b s => R b s /\ Q s).
  Proof.
    intros HQ H s HG Hn [HP Hs]. destruct (H (length (fst s)) s HG (le_n _) HP) as (b & s' & E & Ev & G & F & X). exists b, s'.
    split; [exact E|]. split; [exact Ev|]. split; [exact G|]. split; [eapply kframe_le; eassumption|].
    split; [exact X|exact (HQ s s' HG F Hs)].
  Qed.
  Lemma khdo_weaken {B} n (P P' : ST -> Prop) (hm : M ST B) (R R' : B -> ST -> Prop) :
    (forall s, P' s -> P s) -> (forall b s, R b s -> R' b s) -> khdo n P hm R -> khdo n P' hm R'.
  Proof.
    intros HP HR H s HG Hn Hs. destruct (H s HG Hn (HP s Hs)) as (b & s' & E & Ev & G & F & X). exists b, s'.
    repeat (split; [assumption|]). auto.
  Qed.
  Lemma khdo_view {B} n (P : ST -> Prop) c (hm : M ST B) R :
    khdo n (fun s => kview s = c /\ P s) hm R -> khdo n (fun s => kview s = c /\ P s) hm (fun b s => kview s = c /\ R b s).
  Proof.
    intros H s HG Hn [<- Hs]. destruct (H s HG Hn (conj eq_refl Hs)) as (b & s' & E & Ev & G & F & X). exists b, s'.
    repeat (split; [assumption|]). exact X.
  Qed.
  Lemma khdo_bind {A B} n (P : ST -> Prop) (hm : M ST A) R (hk : A -> M ST B) Q :
    khdo n P hm R -> (forall a, khdo n (R a) (hk a) Q) -> khdo n P (bind hm hk) Q.
  Proof.
    intros H1 H2 s HG Hn Hs. destruct (H1 s HG Hn Hs) as (b & s' & E & Ev & G & F & X).
    destruct (H2 b s' G ltac:(destruct F; lia) X) as (b2 & s2 & E2 & Ev2 & G2 & F2 & X2). exists b2, s2. unfold bind. rewrite E. split; [exact E2|].
    split; [congruence|]. split; [exact G2|]. split; [eapply kframe_trans; eassumption|exact X2].
  Qed.
  Lemma khdo_ret {B} n (P : ST -> Prop) (b : B) : khdo n P (ret b) (fun x s => x = b /\ P s).
  Proof. intros s HG Hn Hs. exists b, s. split; [reflexivity|]. split; [reflexivity|]. split; [exact HG|]. split; [apply kframe_refl|]. auto. Qed.
  Lemma kview_local (h h' : heap V) o : (forall r, In r (krefs o) -> cell h' r = cell h r) -> kview (h', o) = kview (h, o).
  Proof.
    intros H. cbn. f_equal; [f_equal|]; apply cells_same; intros r Hr; apply H; apply in_app_iff; [left|right]; exact Hr.
  Qed.
  Lemma khdo_alloc n (P : ST -> Prop) v : kstable P -> khdo n P (k_alloc v) (fun b s => knewlist n v b s /\ P s).
  Proof.
    intros HS [h o] [HN HF] Hn Hs. exists (length h), (h ++ [v], o). cbn [fst snd] in *. split; [destruct o; reflexivity|].
    assert (F : kframe (h, o) (h ++ [v], o)).
    { split; cbn; [rewrite app_length; lia|]. split; [intros r Hr _; apply cell_app_old, Hr|]. intros r Hr. left. exact Hr. }
    split; [|split; [|split; [eapply kframe_le; [|exact F]; exact Hn|split]]].
    - apply kview_local. intros r Hr. apply cell_app_old. rewrite Forall_forall in HF. apply HF, Hr.
    - split; [exact HN|]. eapply Forall_impl; [|exact HF]. intros r Hr. cbn in *. rewrite app_length. lia.
    - split; [apply cell_app_new|]. split; [cbn; rewrite app_length; cbn; lia|]. split; [|exact Hn].
      cbn. intros H. rewrite Forall_forall in HF. specialize (HF _ H). lia.
    - refine (HS (h, o) _ _ F Hs). split; assumption.
  Qed.
  Lemma khdo_cell n (P : ST -> Prop) r v : (forall s, P s -> cell (fst s) r = v) -> khdo n P (k_cell r) (fun l s => l = v /\ P s).
  Proof.
    intros H [h [ob ok]] HG Hn Hs. exists (cell h r), (h, mkkhsl ob ok). split; [reflexivity|]. split; [reflexivity|]. split; [exact HG|]. split; [apply kframe_refl|].
    split; [exact (H _ Hs)|exact Hs].
  Qed.
  (** Writing to a list of its own. *)
  Lemma khdo_local {B} n b v x (hm : M ST B) y : (forall s, knewlist n v b s -> exists h, hm s = (Ok y, (h, snd s)) /\
      length h = length (fst s) /\ cell h b = x /\ forall r, r <> b -> cell h r = cell (fst s) r) ->
    khdo n (knewlist n v b) hm (fun z s => z = y /\ knewlist n x b s).
  Proof.
    intros H [h o] [HN HF] Hn Hs. destruct (H _ Hs) as (h' & E & L & C & X). destruct Hs as (Eb & Hb & Hi & Hnb). cbn [fst snd] in *.
    exists y, (h', o). split; [exact E|]. split; [apply kview_local; intros r Hr; apply X; congruence|].
    split; [split; cbn; [exact HN|rewrite L; exact HF]|]. split.
    - split; cbn; [lia|]. split; [|intros r Hr; left; exact Hr]. intros r Hr _. apply X. lia.
    - split; [reflexivity|]. split; [exact C|]. split; [cbn; lia|]. split; [exact Hi|exact Hnb].
  Qed.
  Lemma khdo_write n b v x : khdo n (knewlist n v b) (k_write b x) (fun _ s => knewlist n x b s).
  Proof.
    eapply khdo_weaken; [intros s H; exact H| |eapply (khdo_local n b v x _ tt)]; [intros z s [_ H]; exact H|].
    intros [h [ob ok]] (E & Hb & _). exists (write h b x). split; [reflexivity|]. split; [apply length_write|].
    split; [apply cell_write_same, Hb|]. intros r Hr. apply cell_write_other, Hr.
  Qed.
  Lemma khdo_reduce n b v (rs : khsl V -> list ref) x (P : ST -> Prop) :
    (forall s, P s -> knewlist n v b s) ->
    (forall s, P s -> ~ In b (rs (snd s)) /\ concat (map (cell (fst s)) (rs (snd s))) = x) ->
    khdo n P (modify (fun s : ST => (reduce_iadd (rs (snd s)) b (fst s), snd s))) (fun _ s => knewlist n (v ++ x) b s).
  Proof.
    intros HP HX [h o] [HN HF] Hn Hs. destruct (HX _ Hs) as [Hb Ex]. destruct (HP _ Hs) as (Eb & Hl & Hi & Hnb). cbn [fst snd] in *.
    eexists tt, (_, o). split; [reflexivity|]. cbn [fst snd].
    split; [apply kview_local; intros r Hr; apply reduce_other; congruence|].
    split; [split; cbn; [exact HN|rewrite length_reduce; exact HF]|]. split.
    - split; cbn; [rewrite length_reduce; lia|]. split; [|intros r Hr; left; exact Hr]. intros r Hr _. apply reduce_other. lia.
    - split; cbn; [rewrite reduce_acc by assumption; congruence|]. split; [rewrite length_reduce; exact Hl|]. split; assumption.
  Qed.
  (** ** Methods of SortedList *)
  Definition bst (s : ST) : heap V * hsl V := (fst s, kbase (snd s)).
  Lemma base_good s : kgood s -> good (bst s).
  Proof.
    intros [HN HF]. unfold krefs in *. split; cbn.
    - exact (nodup_l _ _ HN).
    - apply Forall_app in HF as [HF _]. exact HF.
  Qed.
  Lemma nodup_disjoint {A} (l m : list A) x : NoDup (l ++ m) -> In x l -> ~ In x m.
  Proof.
    induction l as [|y l IH]; [intros _ []|]; intros HN [->|Hx]; inversion HN; subst.
    - intros Hm. apply H1. apply in_app_iff. right. exact Hm.
    - apply IH; assumption.
  Qed.
  Lemma nodup_join {A} (l m : list A) : NoDup l -> NoDup m -> (forall x, In x l -> ~ In x m) -> NoDup (l ++ m).
  Proof.
    intros Hl Hm. induction Hl as [|x l Hx Hl IH]; intros H; cbn; [exact Hm|]. constructor.
    - intros Hi. apply in_app_iff in Hi as [Hi|Hi]; [exact (Hx Hi)|exact (H x (or_introl eq_refl) Hi)].
    - apply IH. intros y Hy. apply H. right. exact Hy.
  Qed.
  Lemma base_lift s t : kgood s -> good t -> frame (bst s) t ->
    let s' := (fst t, mkkhsl (snd t) (krows (snd s))) in
    kgood s' /\ kframe s s' /\ keys (kview s') = keys (kview s).
  Proof.
    destruct s as [h [b ks]], t as [h' b']. intros [HN HF] [HN' HF'] (FL & FC & FR). unfold krefs in *. cbn in *.
    apply Forall_app in HF as [HF1 HF2]. rewrite Forall_forall in HF1, HF2.
    assert (HD : forall r, In r ks -> ~ In r (rows b)) by (intros r Hr Hb; exact (nodup_disjoint _ _ r HN Hb Hr)).
    split; [|split].
    - split; cbn; unfold krefs; cbn.
      + apply nodup_join; [exact HN'|exact (nodup_r _ _ HN)|].
        intros r Hr Hk. destruct (FR r Hr) as [Hr'|Hr']; [exact (HD r Hk Hr')|]. specialize (HF2 r Hk). lia.
      + apply Forall_app. split; [exact HF'|]. apply Forall_forall. intros r Hr. specialize (HF2 r Hr). lia.
    - split; cbn; [exact FL|]. unfold krefs. cbn. split.
      + intros r Hr Hn. apply FC; [exact Hr|]. intros Hb. apply Hn, in_app_iff. left. exact Hb.
      + intros r Hr. apply in_app_iff in Hr as [Hr|Hr].
        * destruct (FR r Hr) as [H|H]; [left; apply in_app_iff; left; exact H|right; exact H].
        * left. apply in_app_iff. right. exact Hr.
    - apply cells_same. intros r Hr. apply FC; [exact (HF2 r Hr)|exact (HD r Hr)].
  Qed.
  Lemma base_run {A B} (P : _ -> Prop) (R : A -> B -> _ -> Prop) m (hm : M (heap V * hsl V) B) s :
    kgood s -> P (bst s) -> sim (length (fst s)) P R m hm ->
    kview (snd (onbase hm s)) = mkskl (snd (m (kc (kview s)))) (keys (kview s)) /\ kgood (snd (onbase hm s)) /\
    kframe s (snd (onbase hm s)) /\
    match fst (m (kc (kview s))), fst (onbase hm s) with
    | Ok a, Ok b => R a b (bst (snd (onbase hm s)))
    | Err e, Err e' => e = e'
    | _, _ => False
    end.
  Proof.
    intros HG HP H. destruct (H (bst s) (base_good s HG) (le_n _) HP) as (E & G & F & X).
    destruct (base_lift s _ HG G F) as (G' & F' & K). destruct s as [h [b ks]].
    unfold onbase, zoom. cbn [fst snd bst kbase krows kview kc keys] in *.
    change (bst (h, mkkhsl b ks)) with (h, b) in *.
    destruct (hm (h, b)) as [r [h' b']]. cbn [fst snd] in *.
    split; [|split; [exact G'|split; [exact F'|exact X]]]. cbn in E, K |- *. rewrite E, K. reflexivity.
  Qed.
  Lemma khdo_flat n c : khdo n (fun s => kview s = c) k_flat (fun b s => kview s = c /\ knewlist n (contents (kc c)) b s).
  Proof.
    intros s HG Hn <-. destruct (hdo_flat (length (fst s)) _ (bst s) (base_good s HG) (le_n _) eq_refl) as (b & t & E & Ev & G & F & E' & X).
    destruct (base_lift s t HG G F) as (G' & F' & K). exists b, (fst t, mkkhsl (snd t) (krows (snd s))).
    split; [unfold k_flat, onbase, zoom; change (fst s, kbase (snd s)) with (bst s); rewrite E; reflexivity|].
    assert (Ek : kview (fst t, mkkhsl (snd t) (krows (snd s))) = kview s).
    { destruct s as [h [b0 ks]], t as [h' b']. cbn in *. rewrite E', K. reflexivity. }
    split; [exact Ek|]. split; [exact G'|]. split; [eapply kframe_le; [exact Hn|exact F']|]. split; [exact Ek|].
    destruct X as (X1 & X2 & X3 & X4). split; [|split; [exact X2|split; [|cbn; lia]]].
    - cbn [fst]. rewrite X1. destruct s as [h [b0 ks]]. reflexivity.
    - cbn. unfold krefs. cbn. intros H. apply in_app_iff in H as [H|H]; [exact (X3 H)|].
      destruct HG as [_ HF]. unfold krefs in HF. apply Forall_app in HF as [_ HF]. rewrite Forall_forall in HF. specialize (HF b H). lia.
  Qed.
  (** The value program takes a look at the state. *)
  Lemma ksim_get {A B} n (P : ST -> Prop) (Q : A -> B -> ST -> Prop) k hm :
    (forall c, ksim n (fun s => kview s = c /\ P s) Q (k c) hm) -> ksim n P Q (bind get k) hm.
  Proof. intros H s HG Hn HP. exact (H (kview s) s HG Hn (conj eq_refl HP)). Qed.
  Lemma ksim_get2 {A B} n (P : ST -> Prop) (Q : A -> B -> ST -> Prop) k hk :
    (forall c, ksim n (fun s => kview s = c /\ P s) Q (k c) (hk c)) -> ksim n P Q (bind get k) (bind (kreading get) hk).
  Proof.
    intros H s HG Hn HP. pose proof (H (kview s) s HG Hn (conj eq_refl HP)) as X. destruct s as [h [[rs ms ix of ln ld] ks]].
    exact X.
  Qed.

  Lemma ksim_pure {A B} n (phi : Prop) (P : ST -> Prop) (Q : A -> B -> ST -> Prop) m hm :
    (phi -> ksim n P Q m hm) -> ksim n (fun s => phi /\ P s) Q m hm.
  Proof. intros H s HG Hn [Hp HP]. exact (H Hp s HG Hn HP). Qed.
  Lemma ksim_pre {A B} n (P P' : ST -> Prop) (Q : A -> B -> ST -> Prop) m hm :
    (forall s, P' s -> P s) -> ksim n P Q m hm -> ksim n P' Q m hm.
  Proof. intros H. apply ksim_weaken; auto. Qed.
  (** Reading a list of its own. *)
  Lemma ksim_cell {A B} n (P : ST -> Prop) b v (Q : A -> B -> ST -> Prop) m hk :
    (forall s, P s -> cell (fst s) b = v) -> ksim n P Q m (hk v) -> ksim n P Q m (bind (k_cell b) hk).
  Proof.
    intros HP H [h [ob ok]] HG Hn Hs. specialize (HP _ Hs). cbn in HP. unfold bind, k_cell, onbase, zoom, h_cell. cbn [fst snd kbase krows].
    rewrite HP. exact (H _ HG Hn Hs).
  Qed.
End Writers.
