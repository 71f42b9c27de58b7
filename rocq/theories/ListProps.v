(** * The SortedList properties, as lemmas *)
From Verif Require Import PyBase Model Spec History Reach BaseFacts SpecFacts SliceFacts IndexFacts Shape CoreFacts VtFacts
  KeyFacts KeyLook ListSim ListFacts HistFacts CheckFacts FaultFacts FaultSpec FaultHist.
From Coq Require Import Sorting.Permutation Sorting.Sorted.
Local Unset Implicit Arguments.

Lemma shows_iff {V K} (c : core V K) l : shows c l <-> contents c = l.
Proof. unfold shows, iter, bind, get, ret, contents. split; [congruence|intros ->; reflexivity]. Qed.
Lemma shows_contents {V K} (c : core V K) : shows c (contents c).
Proof. apply shows_iff. reflexivity. Qed.

Section Common.
  Context {V : Type}.
  Variables ltb eqb : V -> V -> bool.
  Variable dflt : nat.
  Hypothesis HT : TotalOrder ltb eqb.
  Hypothesis Hd : 1 <= dflt.

  Lemma reach_inv c : sl_reach ltb eqb dflt c -> LInv ltb c.
  Proof.
    intros (ops & Hok & ->).
    destruct (sl_run_ok ltb eqb HT dflt Hd ops _ (sl_init_inv ltb dflt Hd) Hok) as (c' & E & HI & _).
    rewrite E. exact HI.
  Qed.

  Lemma run_app {S Op Out} (st : Op -> S -> Out * S) a b s :
    run st (a ++ b) s = (fst (run st a s) ++ fst (run st b (snd (run st a s))), snd (run st b (snd (run st a s)))).
  Proof.
    revert s. induction a as [|o a IH]; intros s; cbn [run app].
    - apply surjective_pairing.
    - destruct (st o s) as [r s1]. rewrite IH. destruct (run st a s1) as [rs s2]. cbn. reflexivity.
  Qed.

  Lemma reach_step c o : sl_reach ltb eqb dflt c -> lop_ok o -> sl_reach ltb eqb dflt (snd (sl_do ltb eqb dflt o c)).
  Proof.
    intros (ops & Hok & ->) Ho. exists (ops ++ [o]). split; [apply Forall_app; auto|].
    unfold sl_run. rewrite run_app. cbn [run fst snd]. unfold sl_do.
    destruct (sl_step _ _ _ _ _). reflexivity.
  Qed.

  Lemma do_ok c l o : sl_reach ltb eqb dflt c -> shows c l -> lop_ok o ->
    exists c', sl_do ltb eqb dflt o c = (fst (sp_step ltb eqb ltb o l), c') /\
      sl_reach ltb eqb dflt c' /\ shows c' (snd (sp_step ltb eqb ltb o l)).
  Proof.
    intros HR Hl Ho. apply shows_iff in Hl. pose proof (reach_inv c HR) as HI.
    destruct (sl_step_inv ltb eqb HT dflt Hd o c HI Ho) as (c' & E & HI' & Ec & _).
    exists c'. rewrite Hl in *. split; [exact E|]. split.
    - pose proof (reach_step c o HR Ho) as H. unfold sl_do in H. rewrite E in H. exact H.
    - apply shows_iff. exact Ec.
  Qed.

  Lemma reach_sorted c l : sl_reach ltb eqb dflt c -> shows c l -> sorted ltb l.
  Proof. intros HR Hl. apply shows_iff in Hl. rewrite <- Hl. apply (reach_inv c HR). Qed.
End Common.

(** ** C01 *)
Lemma c01_sorted : forall V (ltb eqb : V -> V -> bool) dflt c,
  TotalOrder ltb eqb -> 1 <= dflt -> sl_reach ltb eqb dflt c ->
  exists l, shows c l /\ sorted ltb l.
Proof.
  intros V ltb eqb dflt c HT Hd HR. exists (contents c). split; [apply shows_contents|].
  eapply reach_sorted; eauto. apply shows_contents.
Qed.

(** ** C02 *)
Lemma c02_refines : forall V (ltb eqb : V -> V -> bool) dflt ops,
  TotalOrder ltb eqb -> 1 <= dflt -> Forall lop_ok ops ->
  exists c, sl_run (total2 ltb) (total2 eqb) dflt ops (sl_init dflt)
              = (fst (sp_run ltb eqb ltb ops []), c) /\
            shows c (snd (sp_run ltb eqb ltb ops [])).
Proof.
  intros V ltb eqb dflt ops HT Hd Hok.
  destruct (sl_run_ok ltb eqb HT dflt Hd ops _ (sl_init_inv ltb dflt Hd) Hok) as (c' & E & HI & Ec & _).
  exists c'. split; [exact E|]. apply shows_iff. exact Ec.
Qed.

(** ** C03 *)
Lemma c03_add : forall V (ltb eqb : V -> V -> bool) dflt c l v,
  TotalOrder ltb eqb -> 1 <= dflt -> sl_reach ltb eqb dflt c -> shows c l ->
  exists c' l1 l2, sl_do ltb eqb dflt (LAdd v) c = (RUnit, c') /\ sl_reach ltb eqb dflt c' /\
    l = l1 ++ l2 /\ (forall x, In x l1 -> ltb v x = false) /\ (forall x, In x l2 -> ltb v x = true) /\
    shows c' (l1 ++ v :: l2) /\ length_of c' = (Ok (S (length l)), c').
Proof.
  intros V ltb eqb dflt c l v HT Hd HR Hl.
  destruct (do_ok ltb eqb dflt HT Hd c l (LAdd v) HR Hl I) as (c' & E & HR' & Hs).
  destruct (sp_add_cases ltb (to_swo HT) v l (reach_sorted ltb eqb dflt HT Hd c l HR Hl)) as (l1 & l2 & E1 & E2 & H1 & H2).
  exists c', l1, l2. split; [exact E|]. split; [exact HR'|]. split; [exact E1|]. split; [exact H1|]. split; [exact H2|].
  cbn [sp_step snd] in Hs. rewrite E2 in Hs. split; [exact Hs|].
  unfold length_of, bind, get, ret. f_equal. f_equal.
  rewrite (co_len _ (lshape_core c' (proj1 (reach_inv ltb eqb dflt HT Hd c' HR')))).
  apply shows_iff in Hs. rewrite Hs, E1, !app_length. simpl. lia.
Qed.

(** ** C04 *)
Lemma c04_update : forall V (ltb eqb : V -> V -> bool) dflt c l it,
  TotalOrder ltb eqb -> 1 <= dflt -> sl_reach ltb eqb dflt c -> shows c l ->
  exists c' l', sl_do ltb eqb dflt (LUpdate it) c = (RUnit, c') /\ sl_reach ltb eqb dflt c' /\
    shows c' l' /\ stable_sort_of ltb (l ++ it) l' /\ Permutation l' (l ++ it).
Proof.
  intros V ltb eqb dflt c l it HT Hd HR Hl.
  destruct (do_ok ltb eqb dflt HT Hd c l (LUpdate it) HR Hl I) as (c' & E & HR' & Hs).
  exists c'. eexists. split; [exact E|]. split; [exact HR'|]. split; [exact Hs|].
  cbn [sp_step snd]. split; [apply sp_sort_stable; apply (to_swo HT)|apply sp_sort_perm; apply (to_swo HT)].
Qed.

(** ** C05 *)
Lemma c05_contains : forall V (ltb eqb : V -> V -> bool) dflt c l v,
  TotalOrder ltb eqb -> 1 <= dflt -> sl_reach ltb eqb dflt c -> shows c l ->
  exists b c', sl_do ltb eqb dflt (LContains v) c = (RBool b, c') /\ shows c' l /\
    (b = true <-> exists x, In x l /\ eqb x v = true).
Proof.
  intros V ltb eqb dflt c l v HT Hd HR Hl.
  destruct (do_ok ltb eqb dflt HT Hd c l (LContains v) HR Hl I) as (c' & E & HR' & Hs).
  eexists _, c'. split; [exact E|]. split; [exact Hs|]. apply existsb_exists.
Qed.

(** ** C06 *)
Lemma sp_discard_cases {V} (eqb : V -> V -> bool) v l :
  (exists a x b, l = a ++ x :: b /\ eqb x v = true /\ (forall y, In y a -> eqb y v = false) /\
     sp_discard eqb v l = a ++ b /\ sp_contains eqb v l = true) \/
  ((forall y, In y l -> eqb y v = false) /\ sp_discard eqb v l = l /\ sp_contains eqb v l = false).
Proof.
  induction l as [|y l IH].
  - right. repeat split. intros y [].
  - cbn [sp_discard]. unfold sp_contains in *. cbn [existsb]. destruct (eqb y v) eqn:E.
    + left. exists [], y, l. repeat split; auto. intros z [].
    + destruct IH as [(a & x & b & -> & H1 & H2 & H3 & H4)|(H1 & H2 & H3)].
      * left. exists (y :: a), x, b. repeat split; auto.
        -- intros z [<-|Hz]; auto.
        -- rewrite H3. reflexivity.
      * right. repeat split; auto.
        -- intros z [<-|Hz]; auto.
        -- rewrite H2. reflexivity.
Qed.

Lemma c06_discard_remove : forall V (ltb eqb : V -> V -> bool) dflt c l v,
  TotalOrder ltb eqb -> 1 <= dflt -> sl_reach ltb eqb dflt c -> shows c l ->
  exists cd cr rr, sl_do ltb eqb dflt (LDiscard v) c = (RUnit, cd) /\
    sl_do ltb eqb dflt (LRemove v) c = (rr, cr) /\
    ((exists a x b, l = a ++ x :: b /\ eqb x v = true /\ (forall y, In y a -> eqb y v = false) /\
        rr = RUnit /\ shows cd (a ++ b) /\ shows cr (a ++ b)) \/
     ((forall y, In y l -> eqb y v = false) /\
        rr = RExn ValueError /\ shows cd l /\ shows cr l)).
Proof.
  intros V ltb eqb dflt c l v HT Hd HR Hl.
  destruct (do_ok ltb eqb dflt HT Hd c l (LDiscard v) HR Hl I) as (cd & Ed & _ & Hsd).
  destruct (do_ok ltb eqb dflt HT Hd c l (LRemove v) HR Hl I) as (cr & Er & _ & Hsr).
  eexists cd, cr, _. split; [exact Ed|]. split; [exact Er|].
  cbn [sp_step fst snd] in *. unfold sp_remove in *.
  destruct (sp_discard_cases eqb v l) as [(a & x & b & H0 & H1 & H2 & H3 & H4)|(H1 & H2 & H3)].
  - left. exists a, x, b. rewrite H4 in *. cbn [fst snd] in *. rewrite H3 in *. repeat split; auto.
  - right. rewrite H3 in *. cbn [fst snd] in *. rewrite H2 in *. repeat split; auto.
Qed.

(** ** C07 *)
Lemma getz_in {V} (l : list V) i : (0 <= i < Z.of_nat (length l))%Z ->
  exists v, nth_error l (Z.to_nat i) = Some v /\ getz l i = Ok v.
Proof.
  intros H. unfold getz. destruct (Z.ltb_spec i 0) as [|_]; [lia|]. destruct (Z.ltb_spec i 0) as [|_]; [lia|].
  unfold getn. destruct (nth_error l (Z.to_nat i)) as [v|] eqn:E; [eauto|].
  apply nth_error_None in E. lia.
Qed.
Lemma getz_neg {V} (l : list V) i : (- Z.of_nat (length l) <= i < 0)%Z ->
  exists v, nth_error l (Z.to_nat (i + Z.of_nat (length l))) = Some v /\ getz l i = Ok v.
Proof.
  intros H. unfold getz. destruct (Z.ltb_spec i 0) as [_|]; [|lia].
  destruct (Z.ltb_spec (i + Z.of_nat (length l)) 0) as [|_]; [lia|].
  unfold getn. destruct (nth_error l _) as [v|] eqn:E; [eauto|].
  apply nth_error_None in E. lia.
Qed.
Lemma getz_out {V} (l : list V) i : (i < - Z.of_nat (length l) \/ Z.of_nat (length l) <= i)%Z ->
  getz l i = Err IndexError.
Proof.
  intros H. unfold getz, getn. destruct (Z.ltb_spec i 0).
  - destruct (Z.ltb_spec (i + Z.of_nat (length l)) 0); [reflexivity|lia].
  - destruct (Z.ltb_spec i 0); [lia|]. destruct (nth_error l _) eqn:E; [|reflexivity].
    assert (Z.to_nat i < length l) by (apply nth_error_Some; congruence). lia.
Qed.

Lemma c07_getitem : forall V (ltb eqb : V -> V -> bool) dflt c l i,
  TotalOrder ltb eqb -> 1 <= dflt -> sl_reach ltb eqb dflt c -> shows c l ->
  exists r c', sl_do ltb eqb dflt (LGet i) c = (r, c') /\ shows c' l /\
    ((0 <= i < Z.of_nat (length l))%Z -> exists v, nth_error l (Z.to_nat i) = Some v /\ r = RVal v) /\
    ((- Z.of_nat (length l) <= i < 0)%Z ->
       exists v, nth_error l (Z.to_nat (i + Z.of_nat (length l))) = Some v /\ r = RVal v) /\
    ((i < - Z.of_nat (length l) \/ Z.of_nat (length l) <= i)%Z -> r = RExn IndexError).
Proof.
  intros V ltb eqb dflt c l i HT Hd HR Hl.
  destruct (do_ok ltb eqb dflt HT Hd c l (LGet i) HR Hl I) as (c' & E & HR' & Hs).
  eexists _, c'. split; [exact E|]. split; [exact Hs|]. cbn [sp_step fst].
  split; [|split]; intros H.
  - destruct (getz_in l i H) as (v & H1 & H2). rewrite H2. eauto.
  - destruct (getz_neg l i H) as (v & H1 & H2). rewrite H2. eauto.
  - rewrite (getz_out l i H). reflexivity.
Qed.

(** ** C08 *)
Lemma slice_indices_cases sl n : (slice_indices sl n = Err ValueError /\ s_step sl = Some 0%Z) \/
  (s_step sl <> Some 0%Z /\ exists start stop step, slice_indices sl n = Ok (start, stop, step)).
Proof.
  destruct (slice_indices sl n) as [[[start stop] step]|e] eqn:E.
  - right. split; [|eauto]. intros H. unfold slice_indices in E. rewrite H in E. discriminate.
  - left. apply slice_indices_Err in E as [-> H]. auto.
Qed.

Lemma sp_slice_ok {V} sl (l : list V) start stop step : slice_indices sl (length l) = Ok (start, stop, step) ->
  exists x, sp_slice sl l = Ok x /\ length x = range_len start stop step /\
    forall k, k < length x -> nth_error x k = nth_error l (Z.to_nat (start + Z.of_nat k * step)).
Proof.
  intros E. unfold sp_slice. rewrite E. cbn [rbind].
  destruct (slice_indices_Ok _ _ _ _ _ E) as (H0 & Hp & Hn).
  assert (HB : Forall (fun i => 0 <= i < Z.of_nat (length l))%Z (rangez start stop step)).
  { apply Forall_forall. intros i Hi. destruct (rangez_bound _ _ _ _ H0 Hi) as [B1 B2].
    destruct (Z.lt_trichotomy step 0) as [Hs|[Hs|Hs]]; [|lia|].
    - specialize (B2 Hs). specialize (Hn Hs). lia.
    - specialize (B1 Hs). specialize (Hp Hs). lia. }
  assert (HM : forall idxs, Forall (fun i => 0 <= i < Z.of_nat (length l))%Z idxs ->
     exists x, mapR (getz l) idxs = Ok x /\ length x = length idxs /\
       forall k i, nth_error idxs k = Some i -> nth_error x k = nth_error l (Z.to_nat i)).
  { intros idxs. induction idxs as [|i idxs IH]; intros HF.
    - exists []. repeat split. intros [|k] i; discriminate.
    - inversion HF as [|? ? Hi HF']; subst. destruct (IH HF') as (x & Ex & Hx & Hk).
      destruct (getz_in l i Hi) as (v & Hv & Hg). exists (v :: x). cbn [mapR]. rewrite Hg. cbn [rbind]. rewrite Ex.
      cbn [rbind length]. repeat split; [lia|]. intros [|k] j; cbn [nth_error]; [intros [= <-]; congruence|apply Hk]. }
  destruct (HM _ HB) as (x & Ex & Hx & Hk). exists x. split; [exact Ex|].
  unfold rangez in *. rewrite map_length, seq_length in Hx. split; [exact Hx|].
  intros k Hlt. apply Hk. rewrite nth_error_map. rewrite (nth_error_nth' _ 0) by (rewrite seq_length; lia).
  cbn [option_map]. rewrite seq_nth by lia. reflexivity.
Qed.

Lemma slice_indices_norm sl n start stop step : slice_indices sl n = Ok (start, stop, step) ->
  step = step_of sl /\ start = first_of sl (Z.of_nat n) /\ stop = end_of sl (Z.of_nat n) /\ step <> 0%Z.
Proof.
  unfold slice_indices, first_of, end_of, step_of, clip, slice_adjust. cbv zeta.
  set (k := match s_step sl with None => 1%Z | Some k => k end). clearbody k.
  destruct (Z.eqb_spec k 0) as [->|Hk]; [discriminate|]. intros [= <- <- <-].
  split; [reflexivity|]. split; [|split; [|exact Hk]].
  - destruct (s_start sl) as [i|]; [|destruct (Z.ltb_spec k 0); lia].
    destruct (Z.ltb_spec k 0), (Z.ltb_spec i 0); match goal with |- context [if ?b then _ else _] => destruct b eqn:? end; lia.
  - destruct (s_stop sl) as [i|]; [|destruct (Z.ltb_spec k 0); lia].
    destruct (Z.ltb_spec k 0), (Z.ltb_spec i 0); match goal with |- context [if ?b then _ else _] => destruct b eqn:? end; lia.
Qed.

Lemma range_len_iff start stop step m : step <> 0%Z ->
  m < range_len start stop step <->
  (if step <? 0 then stop < start + Z.of_nat m * step else start + Z.of_nat m * step < stop)%Z.
Proof.
  intros Hs. unfold range_len. destruct (Z.ltb_spec 0 step) as [H|H]; destruct (Z.ltb_spec step 0) as [H'|H']; try lia.
  - assert (Q : (Z.of_nat m < (stop - start + step - 1) / step)%Z <-> (start + Z.of_nat m * step < stop)%Z).
    { split; intros Q.
      - assert (H1 : (step * ((stop - start + step - 1) / step) <= stop - start + step - 1)%Z)
          by (apply Z.mul_div_le; lia). nia.
      - enough (Z.of_nat m + 1 <= (stop - start + step - 1) / step)%Z by lia.
        apply Z.div_le_lower_bound; [lia|]. nia. }
    rewrite <- Q. lia.
  - assert (Q : (Z.of_nat m < (start - stop - step - 1) / (- step))%Z <-> (stop < start + Z.of_nat m * step)%Z).
    { split; intros Q.
      - assert (H1 : ((- step) * ((start - stop - step - 1) / (- step)) <= start - stop - step - 1)%Z)
          by (apply Z.mul_div_le; lia). nia.
      - enough (Z.of_nat m + 1 <= (start - stop - step - 1) / (- step))%Z by lia.
        apply Z.div_le_lower_bound; [lia|]. nia. }
    rewrite <- Q. lia.
Qed.

Lemma sp_slice_is {V} sl (l : list V) : s_step sl <> Some 0%Z -> exists x, sp_slice sl l = Ok x /\ slice_is sl l x.
Proof.
  intros H0. destruct (slice_indices_cases sl (length l)) as [[_ E2]|(E2 & start & stop & step & E1)]; [congruence|].
  destruct (sp_slice_ok sl l _ _ _ E1) as (x & H1 & H2 & H3). exists x. split; [exact H1|].
  destruct (slice_indices_norm _ _ _ _ _ E1) as (-> & -> & -> & Hk). intros m. unfold pos_in, pos_of.
  rewrite <- range_len_iff by exact Hk. rewrite <- H2. split.
  - intros Hm. specialize (H3 m Hm). destruct (nth_error x m) as [v|] eqn:E; [|apply nth_error_None in E; lia].
    exists v. auto.
  - intros Hm. apply nth_error_None. lia.
Qed.

Lemma c08_slice : forall V (ltb eqb : V -> V -> bool) dflt c l sl,
  TotalOrder ltb eqb -> 1 <= dflt -> sl_reach ltb eqb dflt c -> shows c l ->
  exists r c', sl_do ltb eqb dflt (LSlice sl) c = (r, c') /\ shows c' l /\
    ((s_step sl = Some 0%Z /\ r = RExn ValueError) \/
     (s_step sl <> Some 0%Z /\ exists x, r = RList x /\ slice_is sl l x)).
Proof.
  intros V ltb eqb dflt c l sl HT Hd HR Hl.
  destruct (do_ok ltb eqb dflt HT Hd c l (LSlice sl) HR Hl I) as (c' & E & HR' & Hs).
  eexists _, c'. split; [exact E|]. split; [exact Hs|]. cbn [sp_step fst].
  destruct (slice_indices_cases sl (length l)) as [[E1 E2]|(E2 & start & stop & step & E1)].
  - left. split; [exact E2|]. unfold sp_slice. rewrite E1. reflexivity.
  - right. split; [exact E2|]. destruct (sp_slice_is sl l E2) as (x & Ex & Hx). rewrite Ex. exists x. auto.
Qed.

(** ** C09 *)
Lemma sp_del_cases {V} (l : list V) i :
  (exists a x b, l = a ++ x :: b /\ (Z.of_nat (length a) = i \/ Z.of_nat (length a) = i + Z.of_nat (length l))%Z /\
     sp_del i l = Ok (a ++ b) /\ getz l i = Ok x) \/
  ((i < - Z.of_nat (length l) \/ Z.of_nat (length l) <= i)%Z /\ sp_del i l = Err IndexError /\ getz l i = Err IndexError).
Proof.
  destruct (Z_lt_ge_dec i (- Z.of_nat (length l))) as [H|H].
  { right. split; [lia|]. split; [|apply getz_out; lia]. unfold sp_del.
    destruct (Z.ltb_spec i 0); [|lia]. destruct (Z.ltb_spec (i + Z.of_nat (length l)) 0); [reflexivity|lia]. }
  destruct (Z_lt_ge_dec i (Z.of_nat (length l))) as [H1|H1].
  2:{ right. split; [lia|]. split; [|apply getz_out; lia]. unfold sp_del, deln.
      destruct (Z.ltb_spec i 0); [lia|]. destruct (Z.ltb_spec i 0); [lia|].
      destruct (Nat.ltb_spec (Z.to_nat i) (length l)); [lia|reflexivity]. }
  left. unfold sp_del, deln, getz, getn.
  set (j := (if (i <? 0)%Z then (i + Z.of_nat (length l))%Z else i)).
  assert (Hj : (0 <= j < Z.of_nat (length l))%Z) by (unfold j; destruct (Z.ltb_spec i 0); lia).
  destruct (Z.ltb_spec j 0) as [|_]; [lia|].
  destruct (Nat.ltb_spec (Z.to_nat j) (length l)) as [Hlt|]; [|lia].
  destruct (nth_error l (Z.to_nat j)) as [x|] eqn:E; [|apply nth_error_None in E; lia].
  apply nth_error_split in E as (a & b & -> & Hlen).
  exists a, x, b. split; [reflexivity|]. split; [rewrite Hlen; unfold j in *; destruct (Z.ltb_spec i 0); lia|].
  split; [|reflexivity]. rewrite <- Hlen. f_equal. rewrite firstn_app, firstn_all, Nat.sub_diag.
  cbn [firstn]. rewrite app_nil_r. f_equal. change (S (length a)) with (1 + length a). rewrite <- skipn_skipn.
  rewrite skipn_app, skipn_all, Nat.sub_diag. reflexivity.
Qed.

Lemma c09_delete : forall V (ltb eqb : V -> V -> bool) dflt c l i,
  TotalOrder ltb eqb -> 1 <= dflt -> sl_reach ltb eqb dflt c -> shows c l ->
  exists r c', sl_do ltb eqb dflt (LDel i) c = (r, c') /\ sl_reach ltb eqb dflt c' /\
    ((exists a x b, l = a ++ x :: b /\
        (Z.of_nat (length a) = i \/ Z.of_nat (length a) = i + Z.of_nat (length l))%Z /\
        r = RUnit /\ shows c' (a ++ b)) \/
     ((i < - Z.of_nat (length l) \/ Z.of_nat (length l) <= i)%Z /\ r = RExn IndexError /\ shows c' l)).
Proof.
  intros V ltb eqb dflt c l i HT Hd HR Hl.
  destruct (do_ok ltb eqb dflt HT Hd c l (LDel i) HR Hl I) as (c' & E & HR' & Hs).
  eexists _, c'. split; [exact E|]. split; [exact HR'|]. cbn [sp_step] in *.
  destruct (sp_del_cases l i) as [(a & x & b & H1 & H2 & H3 & H4)|(H1 & H2 & H3)].
  - left. exists a, x, b. rewrite H3 in *. repeat split; auto.
  - right. rewrite H2 in *. repeat split; auto.
Qed.

Lemma drop_as_filter {V} idxs (l : list V) : forall k,
  drop_positions idxs (Z.of_nat k) l =
  map snd (filter (fun p => negb (existsb (Z.eqb (Z.of_nat (fst p))) idxs)) (combine (seq k (length l)) l)).
Proof.
  induction l as [|x l IH]; intros k; cbn [drop_positions length seq combine filter map fst]; [reflexivity|].
  replace (Z.of_nat k + 1)%Z with (Z.of_nat (S k)) by lia. rewrite IH.
  destruct (existsb (Z.eqb (Z.of_nat k)) idxs); cbn [negb map snd]; reflexivity.
Qed.

Lemma sp_del_slice_is {V} sl (l : list V) : s_step sl <> Some 0%Z ->
  exists l', sp_del_slice sl l = Ok l' /\ slice_deleted sl l l'.
Proof.
  intros H0. unfold sp_del_slice.
  destruct (slice_indices_cases sl (length l)) as [[_ E2]|(E2 & start & stop & step & E1)]; [congruence|].
  rewrite E1. cbn [rbind]. eexists. split; [reflexivity|].
  destruct (slice_indices_norm _ _ _ _ _ E1) as (-> & -> & -> & Hk).
  exists (fun i => existsb (Z.eqb (Z.of_nat i))
    (rangez (first_of sl (Z.of_nat (length l))) (end_of sl (Z.of_nat (length l))) (step_of sl))).
  split; [|exact (drop_as_filter _ l 0)]. intros i. rewrite existsb_eqb_true. unfold rangez. rewrite in_map_iff.
  split.
  - intros (m & Em & Hm). apply in_seq in Hm. exists m. split; [|exact Em]. unfold pos_in, pos_of.
    apply range_len_iff; [exact Hk|lia].
  - intros (m & Hm & Em). exists m. split; [exact Em|]. apply in_seq. unfold pos_in, pos_of in Hm.
    apply range_len_iff in Hm; [lia|exact Hk].
Qed.

Lemma c09_delete_slice : forall V (ltb eqb : V -> V -> bool) dflt c l sl,
  TotalOrder ltb eqb -> 1 <= dflt -> sl_reach ltb eqb dflt c -> shows c l ->
  exists r c', sl_do ltb eqb dflt (LDelSlice sl) c = (r, c') /\ sl_reach ltb eqb dflt c' /\
    ((s_step sl = Some 0%Z /\ r = RExn ValueError /\ shows c' l) \/
     (s_step sl <> Some 0%Z /\ exists l', r = RUnit /\ shows c' l' /\ slice_deleted sl l l')).
Proof.
  intros V ltb eqb dflt c l sl HT Hd HR Hl.
  destruct (do_ok ltb eqb dflt HT Hd c l (LDelSlice sl) HR Hl I) as (c' & E & HR' & Hs).
  eexists _, c'. split; [exact E|]. split; [exact HR'|]. cbn [sp_step] in *.
  destruct (slice_indices_cases sl (length l)) as [[E1 E2]|(E2 & start & stop & step & E1)].
  - left. unfold sp_del_slice in *. rewrite E1 in *. auto.
  - right. split; [exact E2|]. destruct (sp_del_slice_is sl l E2) as (l' & El & Hl'). rewrite El in *. exists l'. auto.
Qed.

(** ** C10 *)
Lemma c10_pop : forall V (ltb eqb : V -> V -> bool) dflt c l i,
  TotalOrder ltb eqb -> 1 <= dflt -> sl_reach ltb eqb dflt c -> shows c l ->
  exists r c', sl_do ltb eqb dflt (LPop i) c = (r, c') /\ sl_reach ltb eqb dflt c' /\
    ((exists a x b, l = a ++ x :: b /\
        (Z.of_nat (length a) = i \/ Z.of_nat (length a) = i + Z.of_nat (length l))%Z /\
        r = RVal x /\ shows c' (a ++ b)) \/
     ((i < - Z.of_nat (length l) \/ Z.of_nat (length l) <= i)%Z /\ r = RExn IndexError /\ shows c' l)).
Proof.
  intros V ltb eqb dflt c l i HT Hd HR Hl.
  destruct (do_ok ltb eqb dflt HT Hd c l (LPop i) HR Hl I) as (c' & E & HR' & Hs).
  eexists _, c'. split; [exact E|]. split; [exact HR'|]. cbn [sp_step] in *.
  destruct (sp_del_cases l i) as [(a & x & b & H1 & H2 & H3 & H4)|(H1 & H2 & H3)].
  - left. exists a, x, b. rewrite H3, H4 in *. repeat split; auto.
  - right. rewrite H2, H3 in *. repeat split; auto.
Qed.

(** ** C11 *)
Lemma c11_bisect : forall V (ltb eqb : V -> V -> bool) dflt c l v,
  TotalOrder ltb eqb -> 1 <= dflt -> sl_reach ltb eqb dflt c -> shows c l ->
  exists c1 c2,
    sl_do ltb eqb dflt (LBisectLeft v) c = (RNat (length (filter (fun x => ltb x v) l)), c1) /\ shows c1 l /\
    sl_do ltb eqb dflt (LBisectRight v) c = (RNat (length (filter (fun x => negb (ltb v x)) l)), c2) /\ shows c2 l.
Proof.
  intros V ltb eqb dflt c l v HT Hd HR Hl.
  destruct (do_ok ltb eqb dflt HT Hd c l (LBisectLeft v) HR Hl I) as (c1 & E1 & _ & H1).
  destruct (do_ok ltb eqb dflt HT Hd c l (LBisectRight v) HR Hl I) as (c2 & E2 & _ & H2).
  exists c1, c2. auto.
Qed.

(** ** C12 *)
Lemma c12_count : forall V (ltb eqb : V -> V -> bool) dflt c l v,
  TotalOrder ltb eqb -> 1 <= dflt -> sl_reach ltb eqb dflt c -> shows c l ->
  exists c', sl_do ltb eqb dflt (LCount v) c = (RNat (length (filter (fun x => eqb x v) l)), c') /\ shows c' l.
Proof.
  intros V ltb eqb dflt c l v HT Hd HR Hl.
  destruct (do_ok ltb eqb dflt HT Hd c l (LCount v) HR Hl I) as (c1 & E1 & _ & H1). exists c1. auto.
Qed.

(** ** C13 *)
Lemma find_seq_first (p : nat -> bool) n : forall k i, find p (seq k n) = Some i ->
  k <= i < k + n /\ p i = true /\ forall j, k <= j < i -> p j = false.
Proof.
  induction n as [|n IH]; intros k i; cbn [seq find]; [discriminate|].
  destruct (p k) eqn:E.
  - intros [= <-]. repeat split; auto; lia.
  - intros H. destruct (IH _ _ H) as (H1 & H2 & H3). repeat split; auto; try lia.
    intros j Hj. destruct (Nat.eq_dec j k) as [->|]; [exact E|apply H3; lia].
Qed.
Lemma find_seq_none (p : nat -> bool) n k : find p (seq k n) = None -> forall j, k <= j < k + n -> p j = false.
Proof. intros H j Hj. eapply find_none in H; [exact H|]. apply in_seq. exact Hj. Qed.

Lemma sp_index_cases {V} (eqb : V -> V -> bool) v a b l :
  let n := Z.of_nat (length l) in
  let hit i := (win_start a n <= Z.of_nat i < win_stop b n)%Z /\ exists x, nth_error l i = Some x /\ eqb x v = true in
  (exists i, sp_index eqb v a b l = Ok i /\ hit i /\ forall j, j < i -> ~ hit j) \/
  (sp_index eqb v a b l = Err ValueError /\ forall j, ~ hit j).
Proof.
  intros n hit. unfold sp_index. cbv zeta. fold n.
  set (p := fun i : nat => _ : bool).
  assert (Hp : forall i, p i = true <-> hit i).
  { intros i. unfold p, hit. rewrite !andb_true_iff, Z.leb_le, Z.ltb_lt. destruct (nth_error l i) as [x|] eqn:E.
    - split; [intros [H1 H2]; split; [lia|]; eauto | intros [H1 (y & [= <-] & H2)]; split; [lia|exact H2]].
    - split; [intros [_ H]; discriminate | intros [_ (y & H & _)]; discriminate]. }
  destruct (find p (seq 0 (length l))) as [i|] eqn:E.
  - left. exists i. destruct (find_seq_first _ _ _ _ E) as (H1 & H2 & H3). split; [reflexivity|].
    split; [apply Hp; exact H2|]. intros j Hj Hh. apply Hp in Hh. rewrite H3 in Hh by lia. discriminate.
  - right. split; [reflexivity|]. intros j Hh. assert (Hj : j < length l).
    { destruct Hh as [_ (x & Hx & _)]. apply nth_error_Some. congruence. }
    apply Hp in Hh. rewrite (find_seq_none _ _ _ E j) in Hh by lia. discriminate.
Qed.

Lemma c13_index : forall V (ltb eqb : V -> V -> bool) dflt c l v start stop,
  TotalOrder ltb eqb -> 1 <= dflt -> sl_reach ltb eqb dflt c -> shows c l ->
  let n := Z.of_nat (length l) in
  let hit i := (win_start start n <= Z.of_nat i < win_stop stop n)%Z /\
               exists x, nth_error l i = Some x /\ eqb x v = true in
  exists r c', sl_do ltb eqb dflt (LIndex v start stop) c = (r, c') /\ shows c' l /\
    ((exists i, r = RNat i /\ hit i /\ forall j, j < i -> ~ hit j) \/
     (r = RExn ValueError /\ forall j, ~ hit j)).
Proof.
  intros V ltb eqb dflt c l v start stop HT Hd HR Hl n hit.
  destruct (do_ok ltb eqb dflt HT Hd c l (LIndex v start stop) HR Hl I) as (c1 & E1 & _ & H1).
  eexists _, c1. split; [exact E1|]. split; [exact H1|]. cbn [sp_step fst].
  destruct (sp_index_cases eqb v start stop l) as [(i & Ei & Hi)|(Ei & Hi)]; rewrite Ei;
    [left; exists i; split; [reflexivity|exact Hi]|right; split; [reflexivity|exact Hi]].
Qed.

(** ** C14 *)
Lemma c14_irange : forall V (ltb eqb : V -> V -> bool) dflt c l (mn mx : option V) (imin imax reverse : bool),
  TotalOrder ltb eqb -> 1 <= dflt -> sl_reach ltb eqb dflt c -> shows c l ->
  let above (x : V) := match mn with None => true | Some m => if imin then negb (ltb x m) else ltb m x end in
  let below (x : V) := match mx with None => true | Some m => if imax then negb (ltb m x) else ltb x m end in
  let r := filter (fun x => above x && below x) l in
  exists c', sl_do ltb eqb dflt (LIRange mn mx imin imax reverse) c
               = (RList (if reverse then rev r else r), c') /\ shows c' l.
Proof.
  intros V ltb eqb dflt c l mn mx imin imax reverse HT Hd HR Hl above below r.
  destruct (do_ok ltb eqb dflt HT Hd c l (LIRange mn mx imin imax reverse) HR Hl I) as (c1 & E1 & _ & H1).
  exists c1. auto.
Qed.

(** ** C15 *)
Lemma c15_islice : forall V (ltb eqb : V -> V -> bool) dflt c l a b reverse,
  TotalOrder ltb eqb -> 1 <= dflt -> sl_reach ltb eqb dflt c -> shows c l ->
  exists x c', sl_do ltb eqb dflt (LISlice a b reverse) c = (RList (if reverse then rev x else x), c') /\
    shows c' l /\ slice_is (mkslice a b None) l x.
Proof.
  intros V ltb eqb dflt c l a b reverse HT Hd HR Hl.
  destruct (do_ok ltb eqb dflt HT Hd c l (LISlice a b reverse) HR Hl I) as (c1 & E1 & _ & H1).
  cbn [sp_step fst snd] in *.
  destruct (sp_slice_is (mkslice a b None) l) as (x & Ex & Hx); [discriminate|].
  rewrite Ex in E1. exists x, c1. auto.
Qed.

(** ** C16 *)
Lemma c16_len_iter : forall V (ltb eqb : V -> V -> bool) dflt c,
  TotalOrder ltb eqb -> 1 <= dflt -> sl_reach ltb eqb dflt c ->
  exists l, iter c = (Ok l, c) /\ length_of c = (Ok (length l), c) /\ reversed c = (Ok (rev l), c).
Proof.
  intros V ltb eqb dflt c HT Hd HR. exists (contents c).
  pose proof (lshape_core c (proj1 (reach_inv ltb eqb dflt HT Hd c HR))) as HC.
  split; [reflexivity|]. split; [|apply reversed_ok].
  unfold length_of, bind, get, ret. rewrite (co_len _ HC). reflexivity.
Qed.

(** ** C17 *)
Lemma load_from {V} n (ops : list (lop V)) dflt ld : n <= dflt -> n <= ld -> Forall (loads_from n) ops ->
  n <= fold_left (fun ld o => load_after dflt o ld) ops ld.
Proof.
  intros Hd. revert ld. induction ops as [|o ops IH]; intros ld Hl HF; [exact Hl|].
  inversion HF as [|? ? Ho HF']; subst. cbn [fold_left]. apply IH; [|exact HF'].
  destruct o; cbn in *; auto.
Qed.

Lemma c17_check : forall V (ltb eqb : V -> V -> bool) dflt ops,
  TotalOrder ltb eqb -> 4 <= dflt -> Forall (loads_from 4) ops ->
  sl_check (total2 ltb) (total2 eqb) (snd (sl_run (total2 ltb) (total2 eqb) dflt ops (sl_init dflt))) = Ok tt.
Proof.
  intros V ltb eqb dflt ops HT Hd HF.
  assert (Hok : Forall lop_ok ops).
  { eapply Forall_impl; [|exact HF]. intros [] H; cbn in *; auto; lia. }
  destruct (sl_run_ok ltb eqb HT dflt ltac:(lia) ops _ (sl_init_inv ltb dflt ltac:(lia)) Hok) as (c' & E & HI & _ & El).
  rewrite E. apply (sl_check_ok ltb eqb HT); [exact HI|]. cbn [snd]. rewrite El. apply load_from; auto.
Qed.

(** ** C18 *)
Lemma sp_no_resets {V} (ltb eqb vltb : V -> V -> bool) ops : forall l,
  outs_no_resets ops (fst (sp_run ltb eqb vltb ops l)) = fst (sp_run ltb eqb vltb (no_resets ops) l) /\
  snd (sp_run ltb eqb vltb ops l) = snd (sp_run ltb eqb vltb (no_resets ops) l).
Proof.
  unfold sp_run. induction ops as [|o ops IH]; intros l; [split; reflexivity|].
  cbn [run no_resets filter]. destruct (sp_step ltb eqb vltb o l) as [r l1] eqn:E.
  destruct (run (sp_step ltb eqb vltb) ops l1) as [rs l2] eqn:E2. cbn [fst snd outs_no_resets].
  specialize (IH l1). rewrite E2 in IH. cbn [fst snd] in IH.
  destruct (is_reset o) eqn:Er; cbn [negb].
  - destruct o; try discriminate. cbn [sp_step] in E. injection E as <- <-. exact IH.
  - cbn [run]. rewrite E. unfold no_resets in IH.
    destruct (run (sp_step ltb eqb vltb) (filter (fun o0 => negb (is_reset o0)) ops) l1) as [rs' l2']. cbn [fst snd] in *.
    destruct IH as [-> ->]. split; reflexivity.
Qed.

Lemma c18_load_unobservable : forall V (ltb eqb : V -> V -> bool) d1 d2 ops1 ops2,
  TotalOrder ltb eqb -> 1 <= d1 -> 1 <= d2 -> Forall lop_ok ops1 -> Forall lop_ok ops2 ->
  no_resets ops1 = no_resets ops2 ->
  exists l rs1 c1 rs2 c2,
    sl_run (total2 ltb) (total2 eqb) d1 ops1 (sl_init d1) = (rs1, c1) /\
    sl_run (total2 ltb) (total2 eqb) d2 ops2 (sl_init d2) = (rs2, c2) /\
    outs_no_resets ops1 rs1 = outs_no_resets ops2 rs2 /\ shows c1 l /\ shows c2 l.
Proof.
  intros V ltb eqb d1 d2 ops1 ops2 HT H1 H2 Ho1 Ho2 E.
  destruct (c02_refines V ltb eqb d1 ops1 HT H1 Ho1) as (c1 & E1 & S1).
  destruct (c02_refines V ltb eqb d2 ops2 HT H2 Ho2) as (c2 & E2 & S2).
  destruct (sp_no_resets ltb eqb ltb ops1 []) as [A1 B1]. destruct (sp_no_resets ltb eqb ltb ops2 []) as [A2 B2].
  eexists _, _, c1, _, c2. split; [exact E1|]. split; [exact E2|]. split; [congruence|]. split; [exact S1|].
  rewrite B1, E, <- B2. exact S2.
Qed.

(** ** C19 *)
Lemma c19_queries : forall V (ltb eqb : V -> V -> bool) dflt c l o,
  TotalOrder ltb eqb -> 1 <= dflt -> sl_reach ltb eqb dflt c -> shows c l -> query o ->
  exists r c', sl_do ltb eqb dflt o c = (r, c') /\ sl_reach ltb eqb dflt c' /\ shows c' l.
Proof.
  intros V ltb eqb dflt c l o HT Hd HR Hl Hq.
  destruct (do_ok ltb eqb dflt HT Hd c l o HR Hl) as (c1 & E1 & R1 & H1); [destruct o; simpl in *; tauto|].
  eexists _, c1. split; [exact E1|]. split; [exact R1|]. destruct o; simpl in Hq; try contradiction; exact H1.
Qed.

(** ** C20 *)
Lemma sl_new_shows {V} (ltb eqb : V -> V -> bool) dflt it : TotalOrder ltb eqb -> 1 <= dflt ->
  exists c', sl_new (total2 ltb) dflt it = Ok c' /\ sl_reach ltb eqb dflt c' /\ shows c' (sp_sort ltb it).
Proof.
  intros HT Hd. destruct (sl_new_ok ltb (to_swo HT) dflt it Hd) as (c' & E & H1 & H2 & H3).
  exists c'. split; [exact E|]. split; [|apply shows_iff; exact H2].
  exists [LUpdate it]. split; [repeat constructor|]. unfold sl_run. cbn [run sl_step].
  unfold sl_new in E. unfold observe, sl_init.
  destruct (sl_update (total2 ltb) it (core_empty dflt)) as [[u|e] c1]; [injection E as ->; reflexivity|discriminate].
Qed.

Lemma c20_construct : forall V (ltb eqb : V -> V -> bool) dflt it,
  TotalOrder ltb eqb -> 1 <= dflt ->
  exists c l, sl_new (total2 ltb) dflt it = Ok c /\ sl_reach ltb eqb dflt c /\ shows c l /\ stable_sort_of ltb it l.
Proof.
  intros V ltb eqb dflt it HT Hd. destruct (sl_new_shows ltb eqb dflt it HT Hd) as (c & E & HR & Hs).
  exists c, (sp_sort ltb it). repeat split; auto; apply sp_sort_stable; apply (to_swo HT).
Qed.

Lemma c20_copy_plus_mul : forall V (ltb eqb : V -> V -> bool) dflt c l it n,
  TotalOrder ltb eqb -> 1 <= dflt -> sl_reach ltb eqb dflt c -> shows c l ->
  let lt := total2 ltb in
  (exists c', sl_copy lt dflt c = (Ok c', c) /\ sl_reach ltb eqb dflt c' /\ shows c' l) /\
  (exists c' l', sl_plus lt dflt it c = (Ok c', c) /\ sl_reach ltb eqb dflt c' /\ shows c' l' /\
     stable_sort_of ltb (l ++ it) l') /\
  (exists c' l', sl_mul lt dflt n c = (Ok c', c) /\ sl_reach ltb eqb dflt c' /\ shows c' l' /\
     stable_sort_of ltb (concat (repeat l (Z.to_nat n))) l') /\
  (exists c' l', sl_do ltb eqb dflt (LIAdd it) c = (RUnit, c') /\ sl_reach ltb eqb dflt c' /\ shows c' l' /\
     stable_sort_of ltb (l ++ it) l') /\
  (exists c' l', sl_do ltb eqb dflt (LIMul n) c = (RUnit, c') /\ sl_reach ltb eqb dflt c' /\ shows c' l' /\
     stable_sort_of ltb (concat (repeat l (Z.to_nat n))) l').
Proof.
  intros V ltb eqb dflt c l it n HT Hd HR Hl lt.
  pose proof (reach_sorted ltb eqb dflt HT Hd c l HR Hl) as Ho. pose proof Hl as Hl'. apply shows_iff in Hl'.
  split; [|split; [|split; [|split]]].
  - destruct (sl_new_shows ltb eqb dflt (contents c) HT Hd) as (c' & E & R & S).
    exists c'. unfold sl_copy. rewrite bind_get. unfold liftr. change (concat (lists c)) with (contents c). unfold lt.
    rewrite E. rewrite Hl', sp_sort_id in S by (auto; apply (to_swo HT)). auto.
  - destruct (sl_new_shows ltb eqb dflt (contents c ++ it) HT Hd) as (c' & E & R & S). rewrite Hl' in *.
    eexists c', _. unfold sl_plus. rewrite bind_get. unfold liftr, lt. rewrite Hl', E. split; [reflexivity|].
    split; [exact R|]. split; [exact S|]. apply sp_sort_stable. apply (to_swo HT).
  - destruct (sl_new_shows ltb eqb dflt (list_mul (contents c) n) HT Hd) as (c' & E & R & S). rewrite Hl' in *.
    eexists c', _. unfold sl_mul. rewrite bind_get. unfold liftr, lt. rewrite Hl', E. split; [reflexivity|].
    split; [exact R|]. split; [exact S|]. apply sp_sort_stable. apply (to_swo HT).
  - destruct (do_ok ltb eqb dflt HT Hd c l (LIAdd it) HR Hl I) as (c1 & E1 & R1 & H1).
    eexists c1, _. split; [exact E1|]. split; [exact R1|]. split; [exact H1|]. apply sp_sort_stable. apply (to_swo HT).
  - destruct (do_ok ltb eqb dflt HT Hd c l (LIMul n) HR Hl I) as (c1 & E1 & R1 & H1).
    eexists c1, _. split; [exact E1|]. split; [exact R1|]. split; [exact H1|]. apply sp_sort_stable. apply (to_swo HT).
Qed.

(** ** C22 *)
Lemma c22_unsupported : forall V (ltb eqb : V -> V -> bool) dflt c,
  sl_do ltb eqb dflt LUnsupported c = (RExn NotImplementedError, c).
Proof. reflexivity. Qed.

(** ** C25 *)
Lemma c25_reduce : forall V (ltb eqb : V -> V -> bool) dflt c l,
  TotalOrder ltb eqb -> 1 <= dflt -> sl_reach ltb eqb dflt c -> shows c l ->
  exists c', sl_reduce (total2 ltb) dflt c = (Ok c', c) /\ sl_reach ltb eqb dflt c' /\ shows c' l.
Proof.
  intros V ltb eqb dflt c l HT Hd HR Hl.
  pose proof (reach_sorted ltb eqb dflt HT Hd c l HR Hl) as Ho. pose proof Hl as Hl'. apply shows_iff in Hl'.
  destruct (sl_new_shows ltb eqb dflt (contents c) HT Hd) as (c' & E & R & S).
  exists c'. unfold sl_reduce. rewrite bind_get. unfold liftr. rewrite E.
  rewrite Hl', sp_sort_id in S by (auto; apply (to_swo HT)). auto.
Qed.

(** ** C21 *)
Lemma sp_eq_iff {V} (eqb : V -> V -> bool) l : forall o, sp_eq eqb l o = true <-> all_equal eqb l o.
Proof.
  unfold all_equal. induction l as [|a l IH]; intros [|b o]; cbn [sp_eq].
  - split; auto.
  - split; [discriminate|intros H; inversion H].
  - split; [discriminate|intros H; inversion H].
  - rewrite andb_true_iff, IH. split; [intros []; constructor; auto|intros H; inversion H; auto].
Qed.

Lemma before_cons {V} (ltb eqb : V -> V -> bool) a l b o : eqb a b = true -> ltb a b = false ->
  lex_before ltb eqb (a :: l) (b :: o) <-> lex_before ltb eqb l o.
Proof.
  intros He Hl. split.
  - intros (n & H1 & H2). destruct n as [|n].
    + destruct H2 as [[H _]|(x & y & [= <-] & [= <-] & H)]; [discriminate|congruence].
    + exists n. split; [intros i Hi; apply (H1 (S i)); lia|].
      destruct H2 as [[H H']|H]; [left; cbn in *; lia|right; exact H].
  - intros (n & H1 & H2). exists (S n). split.
    + intros [|i] Hi; [exists a, b; auto|apply H1; lia].
    + destruct H2 as [[H H']|H]; [left; cbn; lia|right; exact H].
Qed.
Lemma before_head {V} (ltb eqb : V -> V -> bool) a l b o : eqb a b = false ->
  lex_before ltb eqb (a :: l) (b :: o) <-> ltb a b = true.
Proof.
  intros He. split.
  - intros (n & H1 & H2). destruct n as [|n].
    + destruct H2 as [[H _]|(x & y & [= <-] & [= <-] & H)]; [discriminate|exact H].
    + destruct (H1 0 ltac:(lia)) as (x & y & [= <-] & [= <-] & H). congruence.
  - intros H. exists 0. split; [intros; lia|]. right. exists a, b. auto.
Qed.
Lemma before_nil {V} (ltb eqb : V -> V -> bool) l : ~ lex_before ltb eqb l [].
Proof.
  intros (n & H1 & [[_ H]|(x & y & _ & H & _)]); [cbn in H; lia|destruct n; discriminate].
Qed.
Lemma nil_before {V} (ltb eqb : V -> V -> bool) a l : lex_before ltb eqb [] (a :: l).
Proof. exists 0. split; [intros; lia|]. left. cbn. lia. Qed.

Lemma lex_iff {V} (ltb eqb : V -> V -> bool) : TotalOrder ltb eqb -> forall l o,
  (lex ltb l o = Lt <-> lex_before ltb eqb l o) /\ (lex ltb l o = Gt <-> lex_before ltb eqb o l) /\
  (lex ltb l o = Eq <-> all_equal eqb l o).
Proof.
  intros HT. unfold all_equal. induction l as [|a l IH]; intros [|b o]; cbn [lex].
  - repeat split; auto; try discriminate; intros H; exfalso; eapply before_nil; exact H.
  - repeat split; intros H; try discriminate; try (exfalso; eapply before_nil; exact H);
      try (exfalso; inversion H; fail). apply nil_before.
  - repeat split; intros H; try discriminate; try (exfalso; eapply before_nil; exact H);
      try (exfalso; inversion H; fail). apply nil_before.
  - pose proof (to_eq HT a b) as He. pose proof (to_eq HT b a) as He'.
    destruct (ltb a b) eqn:E1.
    + assert (E2 : ltb b a = false) by (apply (swo_asym _ (to_swo HT)); exact E1).
      rewrite E2 in He, He'. cbn in He, He'. rewrite before_head, (before_head _ _ b) by assumption.
      rewrite E1, E2. repeat split; intros H; try discriminate; auto. inversion H; congruence.
    + destruct (ltb b a) eqn:E2.
      * cbn in He, He'. rewrite before_head, (before_head _ _ b) by assumption.
        rewrite E1, E2. repeat split; intros H; try discriminate; auto. inversion H; congruence.
      * cbn in He, He'. rewrite !before_cons by assumption. destruct (IH o) as (I1 & I2 & I3).
        rewrite I1, I2, I3. repeat split; auto. intros H. inversion H; auto.
Qed.

Lemma cmp_means_iff {V} (ltb eqb : V -> V -> bool) op l o :
  (match op with Ceq | Cne => True | _ => TotalOrder ltb eqb end) ->
  sp_compare eqb ltb op l o = true <-> cmp_means ltb eqb op l o.
Proof.
  intros HT. destruct op; cbn [cmp_means sp_compare]; try (destruct (lex_iff ltb eqb HT l o) as (I1 & I2 & I3)).
  - apply sp_eq_iff.
  - rewrite <- sp_eq_iff. destruct (sp_eq eqb l o); cbn; split; intros; congruence.
  - rewrite <- I1. destruct (lex ltb l o); split; congruence.
  - rewrite <- I2. destruct (lex ltb l o); split; congruence.
  - rewrite <- I1, <- I3. destruct (lex ltb l o); split; auto; try discriminate. intros []; discriminate.
  - rewrite <- I2, <- I3. destruct (lex ltb l o); split; auto; try discriminate. intros []; discriminate.
Qed.

Lemma c21_compare : forall V (ltb eqb : V -> V -> bool) dflt c l op o,
  TotalOrder ltb eqb -> 1 <= dflt -> sl_reach ltb eqb dflt c -> shows c l ->
  exists b c', sl_do ltb eqb dflt (LCompare op o) c = (RBool b, c') /\ shows c' l /\
    (b = true <-> cmp_means ltb eqb op l o).
Proof.
  intros V ltb eqb dflt c l op o HT Hd HR Hl.
  destruct (do_ok ltb eqb dflt HT Hd c l (LCompare op o) HR Hl I) as (c1 & E1 & _ & H1).
  eexists _, c1. split; [exact E1|]. split; [exact H1|]. apply cmp_means_iff. destruct op; auto.
Qed.

(** ** C54 *)
Lemma sp_documented {V} (ltb eqb vltb : V -> V -> bool) o l e :
  fst (sp_step ltb eqb vltb o l) = RExn e -> documented o e.
Proof.
  destruct o; cbn [sp_step fst documented]; try discriminate.
  - unfold sp_remove. destruct (sp_contains eqb v l); cbn; [discriminate|]. intros [= <-]; reflexivity.
  - destruct (sp_del_cases l i) as [(a & x & b & _ & _ & _ & E)|(_ & _ & E)]; rewrite E; cbn; congruence.
  - intros H. destruct (slice_indices_cases sl (length l)) as [[E1 E2]|(E2 & a & b & s & E1)].
    + unfold sp_slice in H. rewrite E1 in H. cbn in H. injection H as <-. auto.
    + destruct (sp_slice_ok sl l _ _ _ E1) as (x & Ex & _). rewrite Ex in H. discriminate.
  - destruct (sp_del_cases l i) as [(a & x & b & _ & _ & E & _)|(_ & E & _)]; rewrite E; cbn; congruence.
  - unfold sp_del_slice. destruct (slice_indices_cases sl (length l)) as [[E1 E2]|(E2 & a & b & s & E1)]; rewrite E1; cbn.
    + intros [= <-]; auto.
    + discriminate.
  - destruct (sp_del_cases l i) as [(a & x & b & _ & _ & E & E')|(_ & E & E')]; rewrite E, E'; cbn; congruence.
  - unfold sp_index. destruct (find _ _); cbn; [discriminate|]. intros [= <-]; reflexivity.
  - destruct (slice_indices_None start stop (length l)) as (a & b & E).
    destruct (sp_slice_ok _ l _ _ _ E) as (x & Ex & _). rewrite Ex. discriminate.
  - intros [= <-]; reflexivity.
Qed.

Lemma c54_list : forall V (ltb eqb : V -> V -> bool) dflt c o,
  TotalOrder ltb eqb -> 1 <= dflt -> sl_reach ltb eqb dflt c -> lop_ok o ->
  forall e c', sl_do ltb eqb dflt o c = (RExn e, c') -> documented o e.
Proof.
  intros V ltb eqb dflt c o HT Hd HR Ho e c' H.
  destruct (do_ok ltb eqb dflt HT Hd c (contents c) o HR eq_refl Ho) as (c1 & E1 & _).
  rewrite E1 in H. injection H as H _. eapply sp_documented; exact H.
Qed.
