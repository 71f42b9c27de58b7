(** * Lemmas: laws between the operations of SortedSet *)
From Coq Require Import Lia.
From Verif Require Import PyBase Model Spec History BaseFacts SpecFacts Reach ListClass ClassSpec ModelSet SetSpec HashFacts SetProps SetLawsSpec.
Local Unset Implicit Arguments.

Lemma count_parts {V} (eqb : V -> V -> bool) (HE : Equiv eqb) l m p q : distinct eqb l -> distinct eqb m -> distinct eqb p -> (forall x, member eqb x l <-> member eqb x m \/ member eqb x p) ->
  (forall x, ~ (member eqb x m /\ member eqb x p)) -> q = length m + length p -> length l = q.
Proof.
  intros H1 H2 H3 H4 H5 ->. rewrite <- app_length. apply Nat.le_antisymm; apply (pigeon eqb HE); auto.
  - intros x Hx. apply mem_app. apply H4. exact Hx.
  - apply distinct_app. split; [exact H2|]. split; [exact H3|]. intros x y Hx Hy. destruct (eqb x y) eqn:Exy; [|reflexivity]. exfalso.
    apply (H5 y). split; [exists x; auto|apply mem_In; auto].
  - intros x Hx. apply mem_app in Hx. apply H4. exact Hx.
Qed.

Section Alg.
  Context {S V K : Type}.
  Variable T : listcls S V K.
  Variables ltb eqb : V -> V -> bool.
  Variable fref : fwd V K -> list V -> out V * list V.
  Variable dflt : nat.
  Variable ord : nat -> list V -> list V.
  Hypothesis HC : list_class T ltb eqb fref dflt.
  Hypothesis HO : any_order ord.
  Notation mem := (member eqb).
  Let HE : Equiv eqb := class_equiv T ltb eqb fref dflt HC.

  Definition stands (s : sset S V) (l : list V) : Prop := ss_reach T eqb ord s /\ ss_shows T s l /\ distinct eqb l /\ sorted ltb l.
  Lemma stands_step s l o : stands s l -> sop_ok o -> exists r s' l', ss_step T eqb ord o s = (r, s') /\ stands s' l' /\ set_effect eqb fref o l r l'.
  Proof.
    intros (H1 & H2 & _) Ho. destruct (set_step S V K T ltb eqb fref dflt ord s l o HC HO H1 H2 Ho) as (r & s' & l' & E & A1 & A2 & A3 & A4 & A5).
    exists r, s', l'. unfold stands. auto 8.
  Qed.
  Lemma stands_any s : ss_reach T eqb ord s -> exists l, stands s l.
  Proof.
    intros H. destruct (c33_consistent S V K T ltb eqb fref dflt ord s HC HO H) as (l & H1 & H2 & H3 & _). exists l. unfold stands. auto.
  Qed.
  Lemma has_ok s l x : stands s l -> has T eqb ord x s = true <-> mem x l.
  Proof.
    intros H. destruct (stands_step s l (SContains x) H I) as (r & s' & l' & E & _ & _ & b & -> & Hb). unfold has. rewrite E. exact Hb.
  Qed.
  Lemma size_ok s l : stands s l -> size T eqb ord s = length l.
  Proof. intros H. destruct (stands_step s l SLen H I) as (r & s' & l' & E & _ & _ & ->). unfold size. rewrite E. reflexivity. Qed.
  Lemma handed_ok s l b : stands s l -> items (handed T eqb ord b s) = l.
  Proof. intros H. destruct (stands_step s l SIter H I) as (r & s' & l' & E & _ & _ & ->). unfold handed. rewrite E. destruct b; reflexivity. Qed.
  Lemma in_one x a : in_any eqb x [a] <-> mem x (items a).
  Proof. unfold in_any. split; [intros (b & [<-|[]] & H); exact H|intros H; exists a; cbn; auto]. Qed.
  Lemma mem_In_iff l l' : (forall x, In x l' <-> In x l) -> forall x, mem x l' <-> mem x l.
  Proof. intros H x. split; intros (y & Hy & E); exists y; split; auto; apply H; exact Hy. Qed.
  Lemma bool_iff (b c : bool) : (b = true <-> c = true) -> b = c.
  Proof. destruct b, c; intuition congruence. Qed.

  Lemma bin_ok op ip s l t m b : stands s l -> stands t m ->
    exists l', stands (snd (ss_step T eqb ord (the_op op ip (handed T eqb ord b t)) s)) l' /\
      forall x, mem x l' <-> truth_op op (has T eqb ord x s) (has T eqb ord x t) = true.
  Proof.
    intros Hs Ht. pose proof (handed_ok t m b Ht) as Hi. set (a := handed T eqb ord b t) in *.
    assert (Ho : sop_ok (the_op (K:=K) op ip a)) by (destruct op, ip; exact I).
    destruct (stands_step s l (the_op op ip a) Hs Ho) as (r & s' & l' & -> & H' & He). exists l'. cbn [snd]. split; [exact H'|]. intros x.
    pose proof (has_ok s l x Hs) as Ps. pose proof (has_ok t m x Ht) as Pt.
    destruct op, ip; cbn [the_op set_effect] in He; cbn [truth_op].
    - destruct He as (_ & He & _). rewrite He, in_one, Hi, orb_true_iff. tauto.
    - destruct He as (_ & He & _). rewrite He, in_one, Hi, orb_true_iff. tauto.
    - destruct He as (_ & He & _). rewrite He, andb_true_iff, Ps, Pt, <- Hi. cbn. split; [intros [H1 H2]; auto|intros [H1 H2]; split; auto; intros c [<-|[]]; exact H2].
    - destruct He as (_ & He & _). rewrite He, andb_true_iff, Ps, Pt, <- Hi. cbn. split; [intros [H1 H2]; auto|intros [H1 H2]; split; auto; intros c [<-|[]]; exact H2].
    - destruct He as (_ & He). rewrite (same_diff eqb HE l [a] l' He x). rewrite in_one, Hi, andb_true_iff, negb_true_iff, Ps, <- Pt. destruct (has T eqb ord x t); intuition congruence.
    - destruct He as (_ & He). rewrite (same_diff eqb HE l [a] l' He x). rewrite in_one, Hi, andb_true_iff, negb_true_iff, Ps, <- Pt. destruct (has T eqb ord x t); intuition congruence.
    - destruct He as (_ & He & _). rewrite He, Hi, <- Ps, <- Pt. destruct (has T eqb ord x s), (has T eqb ord x t); cbn; intuition congruence.
    - destruct He as (_ & He & _). rewrite He, Hi, <- Ps, <- Pt. destruct (has T eqb ord x s), (has T eqb ord x t); cbn; intuition congruence.
  Qed.
  Lemma copy_ok s l : stands s l -> exists l', stands (snd (ss_step T eqb ord SCopy s)) l' /\ forall x, has T eqb ord x (snd (ss_step T eqb ord SCopy s)) = has T eqb ord x s.
  Proof.
    intros Hs. destruct (stands_step s l SCopy Hs I) as (r & s' & l' & -> & H' & _ & HP). exists l'. cbn [snd]. split; [exact H'|]. intros x.
    apply bool_iff. rewrite (has_ok s' l' x H'), (has_ok s l x Hs). apply mem_perm. exact HP.
  Qed.

  Section Env.
    Variable env : nat -> sset S V.
    Hypothesis Henv : forall i, ss_reach T eqb ord (env i).
    Lemma value_ok e : exists l, stands (value T eqb ord env e) l /\ forall x, has T eqb ord x (value T eqb ord env e) = truth (fun i => has T eqb ord x (env i)) e.
    Proof.
      induction e as [i|op ip b e (l & Hl & IH1) f (m & Hm & IH2)]; cbn [value truth].
      - destruct (stands_any (env i) (Henv i)) as [l Hl]. exists l. auto.
      - set (s := value T eqb ord env e) in *. set (t := value T eqb ord env f) in *.
        assert (Q : exists k, stands (if ip then snd (ss_step T eqb ord SCopy s) else s) k /\
                      forall x, has T eqb ord x (if ip then snd (ss_step T eqb ord SCopy s) else s) = has T eqb ord x s).
        { destruct ip; [eapply copy_ok; eauto|exists l; auto]. }
        destruct Q as (k & Hk & Qk). destruct (bin_ok op ip _ k t m b Hk Hm) as (l' & H' & Hx). exists l'. split; [exact H'|]. intros x.
        apply bool_iff. rewrite (has_ok _ l' x H'), Hx, Qk, IH1, IH2. reflexivity.
    Qed.
    Notation val := (value T eqb ord env).
    Lemma cmp_ok op e f : exists l m, stands (val e) l /\ stands (val f) m /\ exists b, compared T eqb ord op (val e) (val f) = RBool b /\ (b = true <-> set_cmp_means eqb op l m).
    Proof.
      destruct (value_ok e) as (l & Hl & _), (value_ok f) as (m & Hm & _). exists l, m. split; [exact Hl|]. split; [exact Hm|].
      destruct Hl as (H1 & H2 & _), Hm as (H3 & H4 & _).
      destruct (c38_compare S V K T ltb eqb fref dflt ord ord (val e) (val f) l m op HC HO HO H1 H2 H3 H4) as (b & E & Hb).
      exists b. unfold compared. cbn [ss_step]. unfold observe. rewrite E. split; [reflexivity|exact Hb].
    Qed.
  End Env.
End Alg.

(** ** C125 *)
Lemma c125_members : forall S V K (T : listcls S V K) ltb eqb fref dflt ord env e,
  list_class T ltb eqb fref dflt -> any_order ord -> (forall i, ss_reach T eqb ord (env i)) ->
  ss_reach T eqb ord (value T eqb ord env e) /\
  forall x, has T eqb ord x (value T eqb ord env e) = truth (fun i => has T eqb ord x (env i)) e.
Proof.
  intros S V K T ltb eqb fref dflt ord env e HC HO Henv. destruct (value_ok T ltb eqb fref dflt ord HC HO env Henv e) as (l & (H1 & _) & H2). auto.
Qed.

Lemma c125_laws : forall S V K (T : listcls S V K) ltb eqb fref dflt ord env e f,
  list_class T ltb eqb fref dflt -> any_order ord -> (forall i, ss_reach T eqb ord (env i)) ->
  ((forall rho, truth rho e = truth rho f) -> compared T eqb ord Ceq (value T eqb ord env e) (value T eqb ord env f) = RBool true) /\
  ((forall rho, truth rho e = true -> truth rho f = true) -> compared T eqb ord Cle (value T eqb ord env e) (value T eqb ord env f) = RBool true) /\
  ((forall rho, truth rho e = true -> truth rho f = true -> False) ->
     forall b, fst (ss_step T eqb ord (SIsDisjoint (handed T eqb ord b (value T eqb ord env f))) (value T eqb ord env e)) = RBool true).
Proof.
  intros S V K T ltb eqb fref dflt ord env e f HC HO Henv.
  destruct (value_ok T ltb eqb fref dflt ord HC HO env Henv e) as (l & Hl & Pe), (value_ok T ltb eqb fref dflt ord HC HO env Henv f) as (m & Hm & Pf).
  assert (Me : forall x, member eqb x l <-> truth (fun i => has T eqb ord x (env i)) e = true) by (intros x; rewrite <- Pe; symmetry; eapply has_ok; eauto).
  assert (Mf : forall x, member eqb x m <-> truth (fun i => has T eqb ord x (env i)) f = true) by (intros x; rewrite <- Pf; symmetry; eapply has_ok; eauto).
  assert (C : forall op, set_cmp_means eqb op l m -> compared T eqb ord op (value T eqb ord env e) (value T eqb ord env f) = RBool true).
  { intros op H. destruct Hl as (H1 & H2 & _), Hm as (H3 & H4 & _).
    destruct (c38_compare S V K T ltb eqb fref dflt ord ord _ _ l m op HC HO HO H1 H2 H3 H4) as (b & E & Hb).
    unfold compared. cbn [ss_step]. unfold observe. rewrite E. cbn [fst of_res]. f_equal. apply Hb. exact H. }
  split; [|split].
  - intros H. apply C. split; intros x; rewrite Me, Mf, H; auto.
  - intros H. apply C. intros x. rewrite Me, Mf. apply H.
  - intros H b. destruct (stands_step T ltb eqb fref dflt ord HC HO _ l (SIsDisjoint (handed T eqb ord b (value T eqb ord env f))) Hl I) as (r & s' & l' & -> & _ & _ & b' & -> & Hb).
    cbn [fst]. f_equal. apply Hb. rewrite (handed_ok T ltb eqb fref dflt ord HC HO _ m b Hm). intros x [H1 H2]. apply Me in H1. apply Mf in H2. eapply H; eauto.
Qed.

Lemma c125_compare : forall S V K (T : listcls S V K) ltb eqb fref dflt ord s t,
  list_class T ltb eqb fref dflt -> any_order ord -> ss_reach T eqb ord s -> ss_reach T eqb ord t ->
  let has := has T eqb ord in let cmp op := compared T eqb ord op s t in
  (cmp Ceq = RBool true <-> forall x, has x s = has x t) /\ (cmp Cle = RBool true <-> forall x, has x s = true -> has x t = true) /\
  (cmp Cge = RBool true <-> forall x, has x t = true -> has x s = true) /\
  (cmp Cne = RBool true <-> cmp Ceq = RBool false) /\ (cmp Clt = RBool true <-> cmp Cle = RBool true /\ cmp Cge = RBool false) /\
  (cmp Cgt = RBool true <-> cmp Cge = RBool true /\ cmp Cle = RBool false).
Proof.
  intros S V K T ltb eqb fref dflt ord s t HC HO Hs Ht.
  destruct (stands_any T ltb eqb fref dflt ord HC HO s Hs) as [l Hl], (stands_any T ltb eqb fref dflt ord HC HO t Ht) as [m Hm].
  assert (Me : forall x, has T eqb ord x s = true <-> member eqb x l) by (intros x; eapply has_ok; eauto).
  assert (Mf : forall x, has T eqb ord x t = true <-> member eqb x m) by (intros x; eapply has_ok; eauto).
  destruct Hl as (H1 & H2 & _), Hm as (H3 & H4 & _).
  assert (C : forall op, exists b, compared T eqb ord op s t = RBool b /\ (b = true <-> set_cmp_means eqb op l m)).
  { intros op. destruct (c38_compare S V K T ltb eqb fref dflt ord ord _ _ l m op HC HO HO H1 H2 H3 H4) as (b & E & Hb).
    exists b. unfold compared. cbn [ss_step]. unfold observe. rewrite E. auto. }
  assert (Q : forall b P, (b = true <-> P) -> (RBool b = RBool (V:=V) true <-> P)) by (intros b P <-; split; congruence).
  assert (Qn : forall b P, (b = true <-> P) -> (RBool b = RBool (V:=V) false <-> ~ P)).
  { intros b P <-. destruct b; split; intuition congruence. }
  destruct (C Ceq) as (b1 & E1 & B1), (C Cle) as (b2 & E2 & B2), (C Cge) as (b3 & E3 & B3), (C Cne) as (b4 & E4 & B4), (C Clt) as (b5 & E5 & B5), (C Cgt) as (b6 & E6 & B6).
  cbv beta zeta. rewrite E1, E2, E3, E4, E5, E6. rewrite (Q _ _ B1), (Q _ _ B2), (Q _ _ B3), (Q _ _ B4), (Q _ _ B5), (Q _ _ B6), (Qn _ _ B1), (Qn _ _ B2), (Qn _ _ B3).
  cbn [set_cmp_means]. unfold subset. split; [|split; [|split; [|tauto]]].
  - split.
    + intros [A B] x. apply bool_iff. rewrite Me, Mf. split; auto.
    + intros A. split; intros x; rewrite <- Me, <- Mf, A; auto.
  - split; intros A x; specialize (A x); rewrite Me, Mf in *; auto.
  - split; intros A x; specialize (A x); rewrite Me, Mf in *; auto.
Qed.

Lemma c125_sizes : forall S V K (T : listcls S V K) ltb eqb fref dflt ord env e f i j,
  list_class T ltb eqb fref dflt -> any_order ord -> (forall i, ss_reach T eqb ord (env i)) ->
  let n x := size T eqb ord (value T eqb ord env x) in let bin op := EBin op i j e f in
  n (bin OpOr) + n (bin OpAnd) = n e + n f /\ n (bin OpSub) + n (bin OpAnd) = n e /\ n (bin OpXor) + 2 * n (bin OpAnd) = n e + n f.
Proof.
  intros S V K T ltb eqb fref dflt ord env e f i j HC HO Henv. pose proof (class_equiv T ltb eqb fref dflt HC) as HE.
  assert (Q : forall x, exists l, stands T ltb eqb ord (value T eqb ord env x) l /\ size T eqb ord (value T eqb ord env x) = length l /\ distinct eqb l /\
            forall y, member eqb y l <-> truth (fun i => has T eqb ord y (env i)) x = true).
  { intros x. destruct (value_ok T ltb eqb fref dflt ord HC HO env Henv x) as (l & Hl & Px). exists l. split; [exact Hl|]. split; [eapply size_ok; eauto|].
    split; [apply Hl|]. intros y. rewrite <- Px. symmetry. eapply has_ok; eauto. }
  destruct (Q e) as (le & _ & Ne & De & Me), (Q f) as (lf & _ & Nf & Df & Mf), (Q (EBin OpOr i j e f)) as (lo & _ & No & Do & Mo), (Q (EBin OpAnd i j e f)) as (la & _ & Na & Da & Ma),
    (Q (EBin OpSub i j e f)) as (ls & _ & Ns & Ds & Ms), (Q (EBin OpXor i j e f)) as (lx & _ & Nx & Dx & Mx), (Q (EBin OpSub i j f e)) as (lr & _ & Nr & Dr & Mr).
  cbv beta zeta. rewrite Ne, Nf, No, Na, Ns, Nx. cbn [truth] in *.
  assert (E1 : length le = length ls + length la).
  { eapply (count_parts eqb HE le ls la); eauto; intros x; rewrite ?Me, Ms, Ma; cbn; destruct (truth _ e), (truth _ f); cbn; intuition congruence. }
  assert (E2 : length lf = length lr + length la).
  { eapply (count_parts eqb HE lf lr la); eauto; intros x; rewrite ?Mf, Mr, Ma; cbn; destruct (truth _ e), (truth _ f); cbn; intuition congruence. }
  assert (E3 : length lx = length ls + length lr).
  { eapply (count_parts eqb HE lx ls lr); eauto; intros x; rewrite ?Mx, Ms, Mr; cbn; destruct (truth _ e), (truth _ f); cbn; intuition congruence. }
  assert (E4 : length lo = length le + length lr).
  { eapply (count_parts eqb HE lo le lr); eauto; intros x; rewrite ?Mo, Me, Mr; cbn; destruct (truth _ e), (truth _ f); cbn; intuition congruence. }
  lia.
Qed.
