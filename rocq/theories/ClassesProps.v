(** * Lemmas for the property theorems about constructors, classes and key functions *)
From Coq Require Import String.
From Verif Require Import PyBase Model Spec BaseFacts SpecFacts History Reach ListClass ClassSpec ClassFacts HistFacts ModelSet SetSpec SetFacts ModelDict DictSpec MapFacts DictFacts ModelClass ClassesSpec ClassesFacts Concrete ConcreteCompare.
Local Unset Implicit Arguments.

Section Prog.
  Context {V K B F : Type}.
  Variables ltb eqb : V -> V -> bool.
  Variables kltb keqb : K -> K -> bool.
  Variable key : F -> V -> K.
  Variable ident : F.
  Variable dflt : nat.
  Variable ord : nat -> list V -> list V.
  Variable veqb : B -> B -> bool.
  Variable vtext : V -> res string.
  Variable btext : B -> res string.
  Variable ftext : F -> res string.
  Variable user_name : nat -> string.
  Hypothesis HT : TotalOrder ltb eqb.
  Hypothesis HK : TotalOrder kltb keqb.
  Hypothesis HE : forall f, EqCompat (by_key (key f) kltb) eqb.
  Hypothesis Hd : 1 <= dflt.
  Hypothesis HO : any_order ord.
  Notation den := (fun f => total1 (key f)).
  Notation lobj := (lobj (V:=V) (K:=K) (F:=F)).
  Notation pobj := (pobj (V:=V) (K:=K) (B:=B) (F:=F)).
  Notation robj := (robj (V:=V) (B:=B) (F:=F)).
  Notation Inn := (inner (total2 ltb) (total2 eqb) (total2 kltb) (total2 keqb) den ident dflt).
  Notation Call := (call (total2 ltb) (total2 eqb) (total2 kltb) (total2 keqb) den ident dflt eqb ord).
  Notation Step := (prog_step (total2 ltb) (total2 eqb) (total2 kltb) (total2 keqb) den ident dflt eqb ord veqb vtext btext ftext user_name).
  Notation less := (less ltb kltb key).
  Notation Text := (text_of ltb kltb key vtext btext ftext user_name).
  Let HI k := inner_ok ltb eqb kltb keqb key ident dflt HT HK HE Hd k.

  Definition LR (o : lobj) (c : lclass) (k : option F) (l : list V) : Prop := o_class o = c /\ IR ltb kltb key k o l /\ (c_keyed c = true <-> k <> None).
  Definition SR (x : sobj (V:=V) (K:=K) (F:=F)) (u : option nat) (k : option F) (l : list V) : Prop := so_user x = u /\ so_key x = k /\ SInv eqb (IR ltb kltb key k) (so_set x) l.
  Definition DR (x : dobj (V:=V) (K:=K) (B:=B) (F:=F)) (u : option nat) (k : option F) (d : list (V * B)) : Prop :=
    do_user x = u /\ do_key x = k /\ d_items (do_dict x) = d /\ DInv (less k) eqb (IR ltb kltb key k) (do_dict x).
  Definition orel (x : pobj) (y : robj) : Prop :=
    match x, y with
    | PL o, mkrobj (PList c) k (VList l) => LR o c k l
    | PS x, mkrobj (PSet u) k (VSet l) => SR x u k l
    | PD x, mkrobj (PDict u) k (VDict d) => DR x u k d
    | _, _ => False
    end.

  (** ** Constructors *)
  Notation Cons := (construct (total2 ltb) (total2 kltb) den ident dflt).
  Notation opt it := (match it with Some l => l | None => [] end).
  Lemma new_plain l : exists s, sl_new (total2 ltb) dflt l = Ok s /\ PR ltb s (sp_sort ltb l).
  Proof. destruct (ClassFacts.k_new _ _ _ _ _ _ _ (plain_cls_ok (K:=K) ltb eqb dflt HT Hd) l) as (s & E & HR & _). eauto. Qed.
  Lemma new_keyed f l : exists s, skl_new (total2 kltb) (total1 (key f)) dflt l = Ok s /\ KR (key f) kltb s (sp_sort (by_key (key f) kltb) l).
  Proof. destruct (ClassFacts.k_new _ _ _ _ _ _ _ (keyed_cls_ok ltb eqb kltb keqb key dflt HT HK HE Hd f) l) as (s & E & HR & _). eauto. Qed.
  Lemma list_call cls (it : option (list V)) k : (c_keyed cls = true -> k <> Given None) ->
    (exists c f o, list_kind ident cls k (Ok (c, f)) /\ Cons cls it k = Ok o /\ LR o c f (sp_sort (less f) (opt it))) \/
    (exists e, list_kind ident cls k (Err e) /\ Cons cls it k = Err e).
  Proof.
    intros Hc. destruct cls as [[] u]; cbn in Hc.
    - destruct k as [|[f|]]; [| |destruct (Hc eq_refl eq_refl)].
      + left. destruct (new_keyed ident (opt it)) as (s & E & HR). exists (mklclass true u), (Some ident), (mklobj (mklclass true u) (LKeyed ident s)).
        split; [constructor|]. unfold construct. cbn. rewrite E. split; [reflexivity|]. split; [reflexivity|]. split; [split; [reflexivity|exact HR]|]. split; [intros _ [=]|reflexivity].
      + left. destruct (new_keyed f (opt it)) as (s & E & HR). exists (mklclass true u), (Some f), (mklobj (mklclass true u) (LKeyed f s)).
        split; [constructor|]. unfold construct. cbn. rewrite E. split; [reflexivity|]. split; [reflexivity|]. split; [split; [reflexivity|exact HR]|]. split; [intros _ [=]|reflexivity].
    - destruct (new_plain (opt it)) as (s & E & HR). destruct k as [|[f|]].
      + left. exists (mklclass false u), None, (mklobj (mklclass false u) (LPlain s)). split; [constructor|]. unfold construct. cbn. rewrite E.
        split; [reflexivity|]. split; [reflexivity|]. split; [split; [reflexivity|exact HR]|]. split; [intros [=]|intros H; destruct (H eq_refl)].
      + destruct u as [n|]; [right; exists TypeError; split; [constructor|reflexivity]|].
        left. destruct (new_keyed f (opt it)) as (s' & E' & HR'). exists SortedKeyList_, (Some f), (mklobj SortedKeyList_ (LKeyed f s')).
        split; [constructor|]. unfold construct. cbn. rewrite E'. split; [reflexivity|]. split; [reflexivity|]. split; [split; [reflexivity|exact HR']|]. split; [intros _ [=]|reflexivity].
      + left. exists (mklclass false u), None, (mklobj (mklclass false u) (LPlain s)). split; [constructor|]. unfold construct. cbn. rewrite E.
        split; [reflexivity|]. split; [reflexivity|]. split; [split; [reflexivity|exact HR]|]. split; [intros [=]|intros H; destruct (H eq_refl)].
  Qed.
  Notation SNew := (set_new (total2 ltb) (total2 eqb) (total2 kltb) (total2 keqb) den ident dflt eqb ord).
  Notation DNew := (dict_new (B:=B) (total2 ltb) (total2 eqb) (total2 kltb) (total2 keqb) den ident dflt eqb).
  Lemma set_call cls it k t : exists f x l, (k = Given f \/ k = Omitted /\ f = None) /\ SNew cls it k t = Ok x /\ SR x cls f l /\
    sorted (less f) l /\ distinct eqb l /\ (forall x, member eqb x l <-> exists a, it = Some a /\ member eqb x (items a)).
  Proof.
    set (f := match k with Omitted => None | Given k => k end).
    destruct (ss_new_ok (Inn f) _ _ _ _ _ _ (HI f) ord HO t it) as (s & l & Et & HS & (Hu & _) & _).
    exists f, (mksobj cls f s), l. split; [destruct k; auto|]. unfold set_new. fold f. rewrite Et. split; [reflexivity|]. split; [split; [reflexivity|split; [reflexivity|exact HS]]|].
    split; [eapply sinv_sorted; [apply (HI f)|exact HS]|]. split; [eapply sinv_distinct; [apply (HI f)|exact HS]|].
    intros x. rewrite Hu. split.
    - intros [(? & [] & _)|(a & Hx & Ha)]. destruct it as [b|]; [|destruct Hx]. destruct Hx as [<-|[]]. eauto.
    - intros (a & -> & Ha). right. exists a. cbn. auto.
  Qed.
  Lemma dict_call cls args kw :
    (exists x ps, dict_items (after_key args) (Ok ps) /\ DNew cls args kw = Ok x /\ DR x cls (first_key args) (merge eqb [] (ps ++ kw))) \/
    (exists e, dict_items (after_key args) (Err e) /\ DNew cls args kw = Err e).
  Proof.
    assert (HN : forall k a, exists s, sd_new (Inn k) eqb a = Ok s /\ d_items s = merge eqb [] (pairs_of a) /\ DInv (B:=B) (less k) eqb (IR ltb kltb key k) s).
    { intros k a. destruct (new_ok (Inn k) _ _ _ _ _ _ (HI k) a) as (s & E & H1 & H2 & _). eauto. }
    assert (HA : forall (k : option F) (args : list (parg (V:=V) (B:=B) (F:=F))), (exists x ps, dict_items args (Ok ps) /\ (let! a := update_arg args kw in let! s := sd_new (Inn k) eqb a in Ok (mkdobj cls k s)) = Ok x /\
        DR x cls k (merge eqb [] (ps ++ kw))) \/
      (exists e, dict_items args (Err e) /\ (let! a := update_arg args kw in let! s := sd_new (Inn k) eqb a in Ok (mkdobj cls k s)) = Err e)).
    { intros k as_.
      assert (HG : forall a, exists s, sd_new (Inn k) eqb (match kw with [] => a | _ => APairs (pairs_of a ++ kw) end) = Ok s /\
        DR (mkdobj cls k s) cls k (merge eqb [] (pairs_of a ++ kw))).
      { intros a. destruct (HN k (match kw with [] => a | _ => APairs (pairs_of a ++ kw) end)) as (s & E & H1 & H2). exists s. split; [exact E|].
        repeat split; try apply H2. cbn [do_dict]. rewrite H1. destruct kw; [rewrite app_nil_r|]; reflexivity. }
      destruct as_ as [|a [|b t]]; cbn [update_arg rbind].
      - left. destruct (HN k (APairs kw)) as (s & E & H1 & H2). rewrite E. exists (mkdobj cls k s), []. split; [constructor|]. split; [reflexivity|].
        repeat split; try apply H2. exact H1.
      - destruct a as [|f|a|f a]; cbn [rbind].
        + right. exists TypeError. split; [constructor; auto|reflexivity].
        + right. exists TypeError. split; [constructor; eauto|reflexivity].
        + left. destruct (HG a) as (s & E & H). rewrite E. exists (mkdobj cls k s), (pairs_of a). split; [constructor|]. auto.
        + left. destruct (HG a) as (s & E & H). rewrite E. exists (mkdobj cls k s), (pairs_of a). split; [constructor|]. auto.
      - right. exists TypeError. split; [apply items_more|]. destruct a; reflexivity. }
    unfold dict_new. destruct args as [|[|f|a|f a] t]; apply HA.
  Qed.
  Lemma call_ok c : match c with CList cls _ k => c_keyed cls = true -> k <> Given None | _ => True end ->
    (exists x y, Call c = Ok x /\ calls ltb eqb kltb key ident c (Ok y) /\ orel x y) \/ (exists e, Call c = Err e /\ calls ltb eqb kltb key ident c (Err e)).
  Proof.
    destruct c as [cls it k|cls it k t|cls a kw|cls l v]; intros Hc; cbn [call].
    - destruct (list_call cls it k Hc) as [(c & f & o & H1 & H2 & H3)|(e & H1 & H2)]; rewrite H2; [left|right].
      + eexists _, _. split; [reflexivity|]. split; [constructor; exact H1|exact H3].
      + eexists. split; [reflexivity|]. constructor; exact H1.
    - left. destruct (set_call cls it k t) as (f & x & l & H1 & H2 & H3 & H4 & H5 & H6). rewrite H2. eexists _, _. split; [reflexivity|]. split; [econstructor; eassumption|exact H3].
    - destruct (dict_call cls a kw) as [(x & ps & H1 & H2 & H3)|(e & H1 & H2)]; rewrite H2; [left|right].
      + eexists _, _. split; [reflexivity|]. split; [constructor; exact H1|exact H3].
      + eexists. split; [reflexivity|]. constructor; exact H1.
    - left. destruct (dict_call cls [PData (APairs (map (fun k => (k, v)) l))] []) as [(x & ps & H1 & H2 & H3)|(e & H1 & H2)].
      + unfold dict_fromkeys. rewrite H2. eexists _, _. split; [reflexivity|]. split; [constructor|]. cbn in H1. inversion H1; subst.
        * rewrite app_nil_r in H3. exact H3.
      + cbn in H1. inversion H1; subst. destruct H0 as [[=]|(f & [=])].
  Qed.

  (** ** Methods of lists *)
  Notation Again := (again (total2 ltb) (total2 kltb) den ident dflt).
  Notation LMake := (l_make (total2 ltb) (total2 kltb) den ident dflt).
  Notation LDo := (l_do (total2 ltb) (total2 eqb) (total2 kltb) (total2 keqb) den dflt).
  Notation leff := (list_eff ltb eqb kltb key).
  Lemma ldo_ok o x c k l : LR x c k l -> kop_ok o -> l_makes o = false ->
    exists r x' l', LDo o x = (r, x') /\ leff k o l = (r, l') /\ LR x' c k l'.
  Proof.
    intros (<- & HR & Hk) Ho _. destruct k as [f|].
    - apply ir_keyed in HR as (c & s & -> & HR & Hc). unfold l_do. cbn [o_state o_class list_eff].
      assert (Hc2 : kcmp_ok (K:=K) ltb eqb o) by (destruct o as [[]| | |]; cbn; auto).
      destruct (skl_step_inv (key f) kltb keqb ltb eqb HK (HE f) dflt Hd o s HR Ho Hc2) as (s' & E & HR' & Ec & _). rewrite E. subst l.
      exists (fst (sp_kstep eqb ltb (key f) kltb o (contents (kc s)))), (mklobj c (LKeyed f s')), (snd (sp_kstep eqb ltb (key f) kltb o (contents (kc s)))).
      split; [reflexivity|]. split; [apply surjective_pairing|]. split; [reflexivity|]. split; [|exact Hk]. split; [reflexivity|]. split; assumption.
    - apply ir_plain in HR as (c & s & -> & HR & Hc). unfold l_do. cbn [o_state o_class list_eff].
      destruct o as [o| | |]; try (eexists _, _, _; split; [reflexivity|]; split; [reflexivity|]; split; [reflexivity|]; split; [split; [reflexivity|split; assumption]|exact Hk]).
      destruct (sl_step_inv ltb eqb HT dflt Hd o s HR Ho) as (s' & E & HR' & Ec & _). rewrite E. subst l.
      exists (fst (sp_step ltb eqb ltb o (contents s))), (mklobj c (LPlain s')), (snd (sp_step ltb eqb ltb o (contents s))).
      split; [reflexivity|]. split; [apply surjective_pairing|]. split; [reflexivity|]. split; [|exact Hk]. split; [reflexivity|]. split; assumption.
  Qed.
  Lemma lmake_ok o x c k l : LR x c k l -> l_makes o = true -> exists r l' x', LMake o x = Ok x' /\ leff k o l = (r, l') /\ LR x' c k l'.
  Proof.
    intros (<- & HR & Hk) Ho.
    assert (HA : forall vs, exists x', Again x vs = Ok x' /\ LR x' (o_class x) k (sp_sort (less k) vs)).
    { intros vs. unfold again. destruct (list_call (o_class x) (Some vs) (same_key (o_state x))) as [(c & f & y & H1 & H2 & H3)|(e & H1 & H2)].
      - destruct k as [f|]; [apply ir_keyed in HR as (c & s & -> & HR)|apply ir_plain in HR as (c & s & -> & HR)]; cbn; discriminate.
      - exists y. split; [exact H2|]. destruct k as [f'|]; [apply ir_keyed in HR as (c' & s & -> & HR)|apply ir_plain in HR as (c' & s & -> & HR)]; cbn in *.
        + destruct c' as [[] u]; cbn in *; [|destruct Hk as [_ Hk]; discriminate Hk; discriminate]. inversion H1; subst. exact H3.
        + destruct c' as [[] u]; cbn in *; [destruct Hk as [Hk _]; destruct (Hk eq_refl eq_refl)|]. inversion H1; subst. exact H3.
      - exfalso. destruct k as [f'|]; [apply ir_keyed in HR as (c' & s & -> & HR)|apply ir_plain in HR as (c' & s & -> & HR)]; cbn in *; inversion H1; subst; cbn in Hk.
        destruct Hk as [_ Hk]. discriminate Hk. discriminate. }
    assert (Hl : values_of (o_state x) = l) by
      (destruct k as [f'|]; [apply ir_keyed in HR as (c' & s & -> & HR & Hc)|apply ir_plain in HR as (c' & s & -> & HR & Hc)]; exact Hc).
    assert (Hs : sorted (less k) l) by (eapply (k_sorted _ _ _ _ _ _ _ (HI k)); exact HR).
    pose proof (k_swo _ _ _ _ _ _ _ (HI k)) as HW.
    unfold l_make. rewrite Hl.
    destruct o as [o| | |]; try discriminate Ho; destruct o; try discriminate Ho.
    - destruct (HA l) as (x' & E & H). rewrite (sp_sort_id _ HW l Hs) in H. exists RUnit, l, x'. split; [exact E|]. split; [destruct k; reflexivity|exact H].
    - destruct (HA (l ++ it)) as (x' & E & H). exists RUnit, (sp_sort (less k) (l ++ it)), x'. split; [exact E|]. split; [destruct k; reflexivity|exact H].
    - destruct (HA (list_mul l n)) as (x' & E & H). exists RUnit, (sp_sort (less k) (sp_mul n l)), x'. split; [exact E|]. split; [destruct k; reflexivity|exact H].
    - destruct (HA l) as (x' & E & H). rewrite (sp_sort_id _ HW l Hs) in H. exists RUnit, l, x'. split; [exact E|]. split; [destruct k; reflexivity|exact H].
  Qed.

  (** ** Methods of sets *)
  Notation SMake := (set_make (total2 ltb) (total2 eqb) (total2 kltb) (total2 keqb) den ident dflt eqb ord).
  Notation SAct := (set_act (total2 ltb) (total2 eqb) (total2 kltb) (total2 keqb) den ident dflt eqb ord).
  Lemma sr_sorted x c k l : SR x c k l -> sorted (less k) l /\ distinct eqb l.
  Proof. intros (_ & _ & H). split; [eapply sinv_sorted|eapply sinv_distinct]; try apply (HI k); exact H. Qed.
  Lemma sact_ok o x c k l : SR x c k l -> sop_ok o -> exists r x' l',
    SAct o x = (r, x') /\ set_effect eqb (exposed ltb eqb kltb key k) o l r l' /\ SR x' c k l'.
  Proof.
    intros (<- & <- & HS) Ho. unfold set_act. destruct (ss_step_ok (Inn (so_key x)) _ _ _ _ _ _ (HI _) ord HO o _ _ HS Ho) as (r & s' & l' & E & He & HS' & _).
    rewrite E. exists r, (mksobj (so_user x) (so_key x) s'), l'. split; [reflexivity|]. split; [exact He|]. split; [reflexivity|]. split; [reflexivity|exact HS'].
  Qed.
  Lemma siter_ok k x l : SInv eqb (IR ltb kltb key k) x l -> onlist (l_iter (Inn k)) x = (Ok l, x).
  Proof. intros (HR & _). destruct x as [m y t]. unfold onlist, zoom. cbn [s_list] in *. rewrite (k_iter _ _ _ _ _ _ _ (HI k) y l HR). reflexivity. Qed.
  Lemma smake_step o x l n : SInv eqb (IR ltb kltb key (so_key x)) (so_set x) l ->
    set_makes_new o = true -> ss_step (Inn (so_key x)) eqb ord o (so_set x) = (RUnit, n) -> SMake o x = Ok (mksobj (so_user x) (so_key x) n).
  Proof.
    intros HS.
    assert (HF : forall m, rebind (V:=V) m (so_set x) = (RUnit, n) -> fst (m (so_set x)) = Ok n).
    { intros m. unfold rebind. destruct (m (so_set x)) as [[]]; intros [=]; cbn; congruence. }
    intros Ho. destruct o; try discriminate Ho; cbn [ss_step]; unfold set_make; intros E; apply HF in E;
      try (cbv zeta; rewrite E; reflexivity).
    - unfold ss_union, fresh, bind, get, liftr in E. cbv zeta. unfold set_new. rewrite (siter_ok _ _ _ HS) in E |- *.
      cbn in E |- *. rewrite E. reflexivity.
    - unfold ss_reduce, visit, fresh, members, modify, bind, get, ret, liftr in E. cbn in E |- *. unfold set_new. rewrite E. reflexivity.
  Qed.
  Lemma smake_ok o x c k l : SR x c k l -> sop_ok o -> set_makes_new o = true -> exists x' l',
    SMake o x = Ok x' /\ set_effect eqb (exposed ltb eqb kltb key k) o l RUnit l' /\ SR x' c k l'.
  Proof.
    intros (<- & <- & HS) Ho Hn. destruct (ss_step_ok (Inn (so_key x)) _ _ _ _ _ _ (HI _) ord HO o _ _ HS Ho) as (r & s' & l' & E & He & HS' & _).
    assert (r = RUnit) as -> by (destruct o; try discriminate Hn; apply He).
    rewrite (smake_step o x l s' HS Hn E). eexists _, l'. split; [reflexivity|]. split; [exact He|]. split; [reflexivity|]. split; [reflexivity|exact HS'].
  Qed.

  (** ** Methods of dicts *)
  Notation DMake := (dict_make (B:=B) (total2 ltb) (total2 eqb) (total2 kltb) (total2 keqb) den ident dflt eqb).
  Notation DAct := (dict_act (B:=B) (total2 ltb) (total2 eqb) (total2 kltb) (total2 keqb) den ident dflt eqb veqb).
  Notation deff k := (ref_step (less k) eqb veqb (exposed ltb eqb kltb key k)).
  Lemma dact_ok o x c k d : DR x c k d -> dop_ok eqb o -> exists r x' d', DAct o x = (r, x') /\ deff k o d = (r, d') /\ DR x' c k d'.
  Proof.
    intros (<- & <- & <- & HD) Ho. unfold dict_act. destruct (sd_step_ok (Inn (do_key x)) _ _ veqb _ _ _ _ (HI _) o _ HD Ho) as (s' & E & H1 & H2 & _).
    rewrite E. eexists _, _, _. split; [reflexivity|]. split; [apply surjective_pairing|]. split; [reflexivity|]. split; [reflexivity|]. split; [exact H1|exact H2].
  Qed.
  Lemma dmake_step o x n : DInv (less (do_key x)) eqb (IR ltb kltb key (do_key x)) (do_dict x) -> dict_makes_new o = true ->
    sd_step (Inn (do_key x)) eqb veqb o (do_dict x) = (ONone, n) -> DMake o x = Ok (mkdobj (do_user x) (do_key x) n).
  Proof.
    intros HD Ho E.
    pose proof (sd_items_ok (Inn (do_key x)) _ _ _ _ _ _ (HI _) _ HD) as Hi.
    assert (HN : forall a, sd_new (Inn (do_key x)) eqb a = Ok n -> DNew (do_user x) [key_arg (do_key x); PData a] [] = Ok (mkdobj (do_user x) (do_key x) n)).
    { intros a Ha. unfold dict_new. destruct (do_key x); cbn [key_arg take_key update_arg rbind]; rewrite Ha; reflexivity. }
    assert (HF : forall m, drebind m (do_dict x) = (ONone, n) -> fst (m (do_dict x)) = Ok n).
    { intros m. unfold drebind. destruct (m (do_dict x)) as [[]]; intros [=]; cbn; congruence. }
    unfold dict_make. rewrite Hi. cbn [fst rbind].
    destruct o; try discriminate Ho; cbn [sd_step] in E; apply HF in E.
    - unfold sd_or, bind, liftr in E. rewrite Hi in E. apply HN, E.
    - unfold sd_ror, bind, liftr in E. rewrite Hi in E. apply HN, E.
    - unfold sd_copy, bind, liftr in E. rewrite Hi in E. apply HN, E.
    - unfold sd_reduce, items_of, bind, get, ret, liftr in E. destruct insertion; [|rewrite Hi in E]; apply HN, E.
  Qed.
  Lemma dmake_ok o x c k d : DR x c k d -> dop_ok eqb o -> dict_makes_new o = true -> exists r x' d', DMake o x = Ok x' /\ deff k o d = (r, d') /\ DR x' c k d'.
  Proof.
    intros (<- & <- & <- & HD) Ho Hn. destruct (sd_step_ok (Inn (do_key x)) _ _ veqb _ _ _ _ (HI _) o _ HD Ho) as (s' & E & H1 & H2 & _).
    assert (Hr : fst (deff (do_key x) o (d_items (do_dict x))) = ONone) by (destruct o; try discriminate Hn; reflexivity).
    rewrite Hr in E. rewrite (dmake_step o x s' HD Hn E). exists ONone. eexists _, _. split; [reflexivity|].
    split; [rewrite <- Hr; apply surjective_pairing|]. split; [reflexivity|]. split; [reflexivity|]. split; [exact H1|exact H2].
  Qed.

  (** ** Text *)
  Notation Repr := (repr_of (total2 ltb) (total2 eqb) (total2 kltb) (total2 keqb) den ident dflt eqb vtext btext ftext user_name).
  Lemma mapR_err {A C} (f : A -> res C) l e : mapR f l = Err e -> exists a, In a l /\ f a = Err e.
  Proof.
    induction l as [|a l IH]; cbn; [discriminate|]. destruct (f a) eqn:E; cbn; [|intros [= ->]; eauto].
    destruct (mapR f l) eqn:El; cbn; [discriminate|]. intros [= ->]. destruct (IH Logic.eq_refl) as (b & Hb & H). eauto.
  Qed.
  Lemma list_text_ok l : (exists t, list_text vtext l = Ok t /\ values_text vtext l t) \/ (exists v e, list_text vtext l = Err e /\ In v l /\ vtext v = Err e).
  Proof.
    unfold list_text. destruct (mapR vtext l) as [ts|e] eqn:E; cbn.
    - left. eexists. split; [reflexivity|]. exists ts. auto.
    - right. destruct (mapR_err _ _ _ E) as (v & H & Hv). eauto.
  Qed.
  Lemma sapp_assoc (a b c : string) : ((a ++ b) ++ c = a ++ (b ++ c))%string.
  Proof. induction a as [|x a IH]; cbn; [reflexivity|rewrite IH; reflexivity]. Qed.
  Lemma mapR_items (l : list (V * B)) :
    match mapR (fun p => let! s := vtext (fst p) in let! t := btext (snd p) in Ok (s ++ ": " ++ t)%string) l with
    | Ok ts => exists ks vs, mapR vtext (map fst l) = Ok ks /\ mapR btext (map snd l) = Ok vs /\ ts = map (fun p => fst p ++ ": " ++ snd p)%string (List.combine ks vs)
    | Err e => exists p, In p l /\ (vtext (fst p) = Err e \/ btext (snd p) = Err e)
    end.
  Proof.
    induction l as [|[k v] l IH]; cbn; [exists [], []; auto|].
    destruct (vtext k) eqn:Ek; cbn; [|exists (k, v); auto]. destruct (btext v) eqn:Ev; cbn; [|exists (k, v); auto].
    destruct (mapR _ l) as [ts|e]; cbn.
    - destruct IH as (ks & vs & H1 & H2 & ->). rewrite H1, H2. cbn. eexists _, _. repeat split.
    - destruct IH as (p & H & H'). eauto.
  Qed.
  Notation raises := (text_raises vtext btext ftext).
  Lemma text_ok x y : orel x y -> (exists t, Repr x = Ok t /\ Text y t) \/ (exists e, Repr x = Err e /\ raises y e).
  Proof.
    destruct x as [x|x|x], y as [c k [l|l|d]]; cbn [orel]; try tauto; destruct c as [c|c|c]; cbn [r_class r_key r_val]; try tauto.
    - intros (<- & HR & Hk). cbn [repr_of]. unfold l_repr. destruct k as [f|].
      + apply ir_keyed in HR as ([b u] & s & -> & HR & Hc). cbn in Hk. assert (b = true) as -> by (apply Hk; discriminate). cbn [o_state o_class c_user]. rewrite Hc.
        destruct (list_text_ok l) as [(t & -> & Ht)|(v & e & -> & Hv & He)]; cbn [rbind].
        * destruct (ftext f) as [t'|e] eqn:Ef; cbn [rbind]; [left|right].
          -- eexists. split; [reflexivity|]. replace (named user_name "SortedKeyList" u) with (class_name user_name (PList (mklclass true u))) by (destruct u; reflexivity).
             eapply text_values_key; [left; reflexivity|exact Ef|exact Ht].
          -- exists e. split; [reflexivity|]. left. exists f. auto.
        * right. exists e. split; [reflexivity|]. right. left. exists v. auto.
      + apply ir_plain in HR as ([b u] & s & -> & HR & Hc). cbn in Hk. assert (b = false) as -> by (destruct b; [destruct (proj1 Hk Logic.eq_refl Logic.eq_refl)|reflexivity]).
        cbn [o_state o_class c_user]. rewrite Hc.
        destruct (list_text_ok l) as [(t & -> & Ht)|(v & e & -> & Hv & He)]; cbn [rbind]; [left|right].
        * eexists. split; [reflexivity|]. replace (named user_name "SortedList" u) with (class_name user_name (PList (mklclass false u))) by (destruct u; reflexivity).
          eapply text_values; [left; reflexivity|exact Ht].
        * exists e. split; [reflexivity|]. right. left. exists v. auto.
    - intros (<- & <- & HS). cbn [repr_of]. unfold set_repr. rewrite (siter_ok _ _ _ HS). cbn [fst rbind].
      destruct (so_key x) as [f|] eqn:Ek.
      + destruct (ftext f) as [t'|e] eqn:Ef; cbn [rbind]; [|right; exists e; split; [reflexivity|left; exists f; auto]].
        destruct (list_text_ok l) as [(t & -> & Ht)|(v & e & -> & Hv & He)]; cbn [rbind]; [left|right].
        * eexists. split; [reflexivity|]. replace (named user_name "SortedSet" (so_user x)) with (class_name user_name (PSet (so_user x))) by (destruct (so_user x); reflexivity).
          eapply text_values_key; [right; reflexivity|exact Ef|exact Ht].
        * exists e. split; [reflexivity|]. right. left. exists v. auto.
      + cbn [rbind]. destruct (list_text_ok l) as [(t & -> & Ht)|(v & e & -> & Hv & He)]; cbn [rbind]; [left|right].
        * eexists. split; [reflexivity|]. replace (named user_name "SortedSet" (so_user x)) with (class_name user_name (PSet (so_user x))) by (destruct (so_user x); reflexivity).
          eapply text_values; [right; reflexivity|exact Ht].
        * exists e. split; [reflexivity|]. right. left. exists v. auto.
    - intros (<- & <- & <- & HR & HD). cbn [repr_of]. unfold dict_repr.
      set (l := listing (less (do_key x)) (d_items (do_dict x))) in *.
      rewrite (k_iter _ _ _ _ _ _ _ (HI _) _ _ HR). cbn [fst rbind].
      assert (Hin : forall p, In p l -> In p (d_items (do_dict x))) by (intros p; apply listing_In, (k_swo _ _ _ _ _ _ _ (HI _))).
      assert (Em : mapR (fun k => let! v := d_get eqb k (d_items (do_dict x)) in let! s := vtext k in let! t := btext v in Ok (s ++ ": " ++ t)%string) (map fst l)
        = mapR (fun p => let! s := vtext (fst p) in let! t := btext (snd p) in Ok (s ++ ": " ++ t)%string) l).
      { clearbody l. clear HR. induction l as [|p l IH]; [reflexivity|]. cbn [map mapR]. rewrite d_get_lookup, (lookup_self eqb (to_equiv _ _ HT) p _ HD (Hin p (or_introl Logic.eq_refl))).
        cbn [rbind]. rewrite IH by (intros q Hq; apply Hin; right; exact Hq). reflexivity. }
      rewrite Em. pose proof (mapR_items l) as Hm.
      assert (HX : forall (a : string), (forall t, items_text vtext btext l t -> Text (mkrobj (PDict (do_user x)) (do_key x) (VDict (d_items (do_dict x)))) (named user_name "SortedDict" (do_user x) ++ "(" ++ a ++ t ++ ")")%string) ->
        let R := (let! ts := mapR (fun p => let! s := vtext (fst p) in let! t := btext (snd p) in Ok (s ++ ": " ++ t)%string) l in
          Ok (named user_name "SortedDict" (do_user x) ++ "(" ++ a ++ "{" ++ String.concat ", " ts ++ "})")%string) in
        (exists t, R = Ok t /\ Text (mkrobj (PDict (do_user x)) (do_key x) (VDict (d_items (do_dict x)))) t) \/
        (exists e, R = Err e /\ raises (mkrobj (PDict (do_user x)) (do_key x) (VDict (d_items (do_dict x)))) e)).
      { intros a Ha. cbv zeta. destruct (mapR _ l) as [ts|e]; cbn [rbind]; [left|right].
        - eexists. split; [reflexivity|]. destruct Hm as (ks & vs & H1 & H2 & ->). eapply eq_ind; [apply Ha; exists ks, vs; split; [exact H1|]; split; [exact H2|reflexivity]|].
          f_equal. f_equal. f_equal. rewrite !sapp_assoc. reflexivity.
        - exists e. split; [reflexivity|]. destruct Hm as ([k v] & Hp & [H|H]); cbn in H.
          + right. left. exists k. split; [exact H|]. apply (in_map fst _ (k, v)), Hin, Hp.
          + right. right. exists v. split; [exact H|]. apply (in_map snd _ (k, v)), Hin, Hp. }
      subst l. destruct (do_key x) as [f|] eqn:Ek.
      + destruct (ftext f) as [t'|e] eqn:Ef; cbn [rbind]; [|right; exists e; split; [reflexivity|left; exists f; auto]].
        apply HX. intros t Ht. replace (named user_name "SortedDict" (do_user x)) with (class_name user_name (PDict (do_user x))) by (destruct (do_user x); reflexivity).
        rewrite sapp_assoc. eapply text_items_key; [exact Ef|exact Ht].
      + cbn [rbind]. apply HX. intros t Ht. replace (named user_name "SortedDict" (do_user x)) with (class_name user_name (PDict (do_user x))) by (destruct (do_user x); reflexivity).
        eapply text_items. exact Ht.
  Qed.

  (** ** Programs *)
  Notation Rp := (ref_prog ltb eqb kltb key ident veqb vtext btext ftext user_name).
  Notation Rps := (ref_progs ltb eqb kltb key ident veqb vtext btext ftext user_name).
  Lemma put_orel i x y : orel x y -> forall w v, Forall2 orel w v -> nth_error v i <> None -> Forall2 orel (put_obj i x w) (set_obj i y v).
  Proof.
    intros Hxy w v H. revert i. induction H as [|a b w v Hab H IH]; intros [|i] Hi; cbn in Hi |- *; try (destruct (Hi Logic.eq_refl)).
    - constructor; assumption.
    - unfold set_obj. cbn. constructor; [assumption|]. apply IH, Hi.
  Qed.
  Lemma getn_orel w v i : Forall2 orel w v ->
    (exists x y, getn w i = Ok x /\ nth_error v i = Some y /\ orel x y) \/ (getn w i = Err IndexError /\ nth_error v i = None).
  Proof.
    unfold getn. intros H. revert i. induction H as [|x y w v Hxy H IH]; intros [|i]; cbn; eauto 6.
  Qed.
  Lemma new_list_makes (o : kop V K) : l_makes o = true <-> new_list o.
  Proof. destruct o as [[]| | |]; cbn; split; try tauto; discriminate. Qed.
  Lemma new_set_makes (o : sop V K) : set_makes_new o = true <-> new_set o.
  Proof. destruct o; cbn; split; try tauto; discriminate. Qed.
  Lemma new_dict_makes (o : dop V B K) : dict_makes_new o = true <-> new_dict o.
  Proof. destruct o; cbn; split; try tauto; discriminate. Qed.
  Lemma step_ok o w v : Forall2 orel w v -> pop_ok eqb o -> exists r w' v', Step o w = (r, w') /\ Rp o v r v' /\ Forall2 orel w' v'.
  Proof.
    intros HW Ho. destruct o as [c|i|i|i|i o|i o|i o].
    - cbn [prog_step]. destruct (call_ok c) as [(x & y & E & Hc & Hx)|(e & E & Hc)]; [destruct c; auto; exact I|..]; rewrite E; cbn [push].
      + eexists _, _, _. split; [reflexivity|]. split; [constructor; exact Hc|]. apply Forall2_app; auto.
      + eexists _, _, v. split; [reflexivity|]. split; [constructor; exact Hc|exact HW].
    - cbn [prog_step]. destruct (getn_orel w v i HW) as [(x & y & -> & Ey & Hxy)|(-> & Ey)];
        [|eexists _, _, v; split; [reflexivity|]; split; [eapply rp_no_object; eauto|exact HW]].
      eexists _, _, v. split; [reflexivity|]. split; [|exact HW].
      replace (type_of x) with (r_class y); [constructor; exact Ey|].
      destruct x as [x|x|x], y as [c k [l|l|d]]; cbn [orel] in Hxy; try tauto; destruct c as [c|c|c]; try tauto; destruct Hxy as (<- & _); reflexivity.
    - cbn [prog_step]. destruct (getn_orel w v i HW) as [(x & y & -> & Ey & Hxy)|(-> & Ey)];
        [|eexists _, _, v; split; [reflexivity|]; split; [eapply rp_no_object; eauto|exact HW]].
      eexists _, _, v. split; [reflexivity|]. split; [|exact HW].
      replace (key_attr x) with (r_key y); [constructor; exact Ey|].
      destruct x as [x|x|x], y as [c k [l|l|d]]; cbn [orel] in Hxy; try tauto; destruct c as [c|c|c]; try tauto; destruct Hxy as (_ & H & _); try (symmetry; exact H).
      destruct k as [f|]; [apply ir_keyed in H as (c' & s & -> & H)|apply ir_plain in H as (c' & s & -> & H)]; reflexivity.
    - cbn [prog_step]. destruct (getn_orel w v i HW) as [(x & y & -> & Ey & Hxy)|(-> & Ey)];
        [|eexists _, _, v; split; [reflexivity|]; split; [eapply rp_no_object; eauto 6|exact HW]].
      destruct (text_ok x y Hxy) as [(t & -> & Ht)|(e & -> & Ht)]; eexists _, _, v; (split; [reflexivity|]); (split; [|exact HW]).
      + eapply rp_text; eauto.
      + eapply rp_text_err; eauto.
    - cbn [prog_step]. destruct (getn_orel w v i HW) as [(x & y & -> & Ey & Hxy)|(-> & Ey)];
        [|eexists _, _, v; split; [reflexivity|]; split; [eapply rp_no_object; eauto 8|exact HW]].
      destruct x as [x|x|x], y as [c k [l|l|d]]; cbn [orel] in Hxy; try tauto; destruct c as [c|c|c]; try tauto;
        try (eexists _, _, v; split; [reflexivity|]; split; [eapply rp_no_method; [exact Ey|cbn; eauto]|exact HW]).
      destruct (l_makes o) eqn:Eo.
      + destruct (lmake_ok o x c k l Hxy Eo) as (r & l' & x' & -> & El & HR). cbn [rbind push].
        eexists _, _, _. split; [reflexivity|]. split; [eapply rp_list_new; eauto; apply new_list_makes, Eo|]. apply Forall2_app; auto.
      + destruct (ldo_ok o x c k l Hxy Ho Eo) as (r & x' & l' & -> & El & HR).
        eexists _, _, _. split; [reflexivity|]. split; [eapply rp_list; eauto; rewrite <- new_list_makes, Eo; discriminate|]. apply put_orel; [exact HR|exact HW|congruence].
    - cbn [prog_step]. destruct (getn_orel w v i HW) as [(x & y & -> & Ey & Hxy)|(-> & Ey)];
        [|eexists _, _, v; split; [reflexivity|]; split; [eapply rp_no_object; eauto 8|exact HW]].
      destruct x as [x|x|x], y as [c k [l|l|d]]; cbn [orel] in Hxy; try tauto; destruct c as [c|c|c]; try tauto;
        try (eexists _, _, v; split; [reflexivity|]; split; [eapply rp_no_method; [exact Ey|cbn; eauto]|exact HW]).
      destruct (set_makes_new o) eqn:Eo.
      + destruct (smake_ok o x c k l Hxy Ho Eo) as (x' & l' & -> & El & HR). cbn [rbind push]. destruct (sr_sorted _ _ _ _ HR).
        eexists _, _, _. split; [reflexivity|]. split; [eapply rp_set_new; eauto; apply new_set_makes, Eo|]. apply Forall2_app; auto.
      + destruct (sact_ok o x c k l Hxy Ho) as (r & x' & l' & -> & El & HR). destruct (sr_sorted _ _ _ _ HR).
        eexists _, _, _. split; [reflexivity|]. split; [eapply rp_set; eauto; rewrite <- new_set_makes, Eo; discriminate|]. apply put_orel; [exact HR|exact HW|congruence].
    - cbn [prog_step]. destruct (getn_orel w v i HW) as [(x & y & -> & Ey & Hxy)|(-> & Ey)];
        [|eexists _, _, v; split; [reflexivity|]; split; [eapply rp_no_object; eauto 8|exact HW]].
      destruct x as [x|x|x], y as [c k [l|l|d]]; cbn [orel] in Hxy; try tauto; destruct c as [c|c|c]; try tauto;
        try (eexists _, _, v; split; [reflexivity|]; split; [eapply rp_no_method; [exact Ey|cbn; eauto]|exact HW]).
      destruct (dict_makes_new o) eqn:Eo.
      + destruct (dmake_ok o x c k d Hxy Ho Eo) as (r & x' & l' & -> & El & HR). cbn [rbind push].
        eexists _, _, _. split; [reflexivity|]. split; [eapply rp_dict_new; eauto; apply new_dict_makes, Eo|]. apply Forall2_app; auto.
      + destruct (dact_ok o x c k d Hxy Ho) as (r & x' & l' & -> & El & HR).
        eexists _, _, _. split; [reflexivity|]. split; [eapply rp_dict; eauto; rewrite <- new_dict_makes, Eo; discriminate|]. apply put_orel; [exact HR|exact HW|congruence].
  Qed.
  Lemma run_ok ops : forall w v, Forall2 orel w v -> Forall (pop_ok eqb) ops ->
    exists rs w' v', run Step ops w = (rs, w') /\ Rps ops v rs v' /\ Forall2 orel w' v'.
  Proof.
    induction ops as [|o ops IH]; intros w v HW Ho; cbn [run].
    - exists [], w, v. split; [reflexivity|]. split; [constructor|exact HW].
    - inversion Ho as [|? ? Ho1 Ho2]; subst. destruct (step_ok o w v HW Ho1) as (r & w1 & v1 & -> & H1 & HW1).
      destruct (IH w1 v1 HW1 Ho2) as (rs & w2 & v2 & -> & H2 & HW2). exists (r :: rs), w2, v2. split; [reflexivity|]. split; [econstructor; eauto|exact HW2].
  Qed.
End Prog.

Lemma c95_programs : forall (V K B F : Type) (ltb eqb : V -> V -> bool) (kltb keqb : K -> K -> bool) (key : F -> V -> K) (ident : F) (dflt : nat)
  (ord : nat -> list V -> list V) (veqb : B -> B -> bool) (vtext : V -> res string) (btext : B -> res string) (ftext : F -> res string) (user_name : nat -> string)
  (ops : list (pop_ (V:=V) (K:=K) (B:=B) (F:=F))),
  TotalOrder ltb eqb -> TotalOrder kltb keqb -> (forall f, EqCompat (by_key (key f) kltb) eqb) -> 1 <= dflt -> any_order ord -> Forall (pop_ok eqb) ops ->
  exists w, ref_progs ltb eqb kltb key ident veqb vtext btext ftext user_name ops []
    (fst (prog_run (total2 ltb) (total2 eqb) (total2 kltb) (total2 keqb) (fun f => total1 (key f)) ident dflt eqb ord veqb vtext btext ftext user_name ops [])) w.
Proof.
  intros V K B F ltb eqb kltb keqb key ident dflt ord veqb vtext btext ftext user_name ops HT HK HE Hd HO Ho.
  destruct (run_ok ltb eqb kltb keqb key ident dflt ord veqb vtext btext ftext user_name HT HK HE Hd HO ops [] [] (Forall2_nil _) Ho) as (rs & w & v & E & H & _).
  exists v. unfold prog_run. rewrite E. exact H.
Qed.

(** [SortedKeyList(iterable, key=None)]: the other classes take [key=None] for no key. *)
Lemma c95_key_list_key_none : forall (V K F : Type) (ltb eqb : V -> V -> bool) (klt : K -> K -> res bool) (den : F -> V -> res K) (ident : F) (dflt : nat)
  (cls : lclass) (it : option (list V)), TotalOrder ltb eqb -> c_keyed cls = true ->
  match it with
  | None | Some [] => exists x, construct (total2 ltb) klt den ident dflt cls it (Given None) = Ok x /\ o_class x = cls /\ values_of (o_state x) = []
  | Some _ => construct (total2 ltb) klt den ident dflt cls it (Given None) = Err TypeError
  end.
Proof.
  intros V K F ltb eqb klt den ident dflt [[] u] it HT [=]. destruct it as [[|a l]|]; try (eexists; split; [reflexivity|split; reflexivity]).
  unfold construct, init_, none_update. cbn [new_ c_keyed rbind].
  rewrite (py_sorted_sp _ (to_swo HT)). cbn [rbind]. pose proof (sp_sort_length _ (to_swo HT) (a :: l)) as H.
  destruct (sp_sort ltb (a :: l)); [discriminate H|reflexivity].
Qed.

(** Numbers, two key functions, two digits of text each. *)
Definition two_keys (f : bool) : nat -> nat := if f then last_digit else fun v => v.
Lemma two_keys_compat f : EqCompat (by_key (two_keys f) Nat.ltb) Nat.eqb.
Proof. destruct f; [apply last_digit_compat|]. intros x y E. apply Nat.eqb_eq in E. subst. unfold by_key. rewrite Nat.ltb_irrefl. auto. Qed.
Definition two_digits (n : nat) : res string :=
  Ok (String (Ascii.ascii_of_nat (48 + Nat.div n 10)) (String (Ascii.ascii_of_nat (48 + Nat.modulo n 10)) EmptyString)).
Definition key_text (f : bool) : res string := if f then Ok "last"%string else Err ValueError.
Definition sub_name (n : nat) : string := "Sub"%string.
Definition nconstruct := construct (K:=nat) (total2 Nat.ltb) (total2 Nat.ltb) (fun f => total1 (two_keys f)) false 2.
Definition ndict_new := dict_new (B:=nat) (total2 Nat.ltb) (total2 Nat.eqb) (total2 Nat.ltb) (total2 Nat.eqb) (fun f => total1 (two_keys f)) false 2 Nat.eqb.

Lemma c96_callable_mapping : ~ (forall (V K B F : Type) (ltb eqb : V -> V -> bool) (kltb keqb : K -> K -> bool) (key : F -> V -> K) (ident : F) (dflt : nat)
  (args : list (parg (V:=V) (B:=B) (F:=F))) (a : darg V B),
  TotalOrder ltb eqb -> TotalOrder kltb keqb -> (forall f, EqCompat (by_key (key f) kltb) eqb) -> 1 <= dflt ->
  args = [PData a] \/ (exists f, args = [PBoth f a]) ->
  exists x, dict_new (total2 ltb) (total2 eqb) (total2 kltb) (total2 keqb) (fun f => total1 (key f)) ident dflt eqb None args [] = Ok x /\
    d_items (do_dict x) = merge eqb [] (pairs_of a)).
Proof.
  intros H. destruct (H nat nat nat bool Nat.ltb Nat.eqb Nat.ltb Nat.eqb two_keys false 2 [PBoth true (ADict [(1, 11)])] (ADict [(1, 11)])
    nat_total nat_total two_keys_compat ltac:(lia) ltac:(right; eexists; reflexivity)) as (x & E & Hx).
  assert (E' : ndict_new None [PBoth true (ADict [(1, 11)])] [] = Ok x) by exact E. vm_compute in E'. injection E' as <-. vm_compute in Hx. discriminate Hx.
Qed.

Lemma c96_key_none : ~ (forall (V K F : Type) (ltb eqb : V -> V -> bool) (kltb keqb : K -> K -> bool) (key : F -> V -> K) (ident : F) (dflt : nat)
  (cls : lclass) (l : list V), TotalOrder ltb eqb -> TotalOrder kltb keqb -> (forall f, EqCompat (by_key (key f) kltb) eqb) -> 1 <= dflt ->
  exists x, construct (total2 ltb) (total2 kltb) (fun f => total1 (key f)) ident dflt cls (Some l) (Given None) = Ok x /\ values_of (o_state x) = sp_sort ltb l).
Proof.
  intros H. destruct (H nat nat bool Nat.ltb Nat.eqb Nat.ltb Nat.eqb two_keys false 2 SortedKeyList_ [2; 1] nat_total nat_total two_keys_compat ltac:(lia)) as (x & E & _).
  vm_compute in E. discriminate E.
Qed.
