(** * Facts: a key function and comparisons that read the SortedKeyList *)
From Coq Require Import Lia.
From Verif Require Import PyBase Model Spec History BaseFacts SpecFacts SliceFacts Reach Shape CoreFacts VtFacts KeyFacts KeyLook ListSim ListFacts HistFacts
  ListProps FaultFacts FaultHist KeyProps OrderFacts KeyUseSpec KeyUseProps ModelKReads KReadsSpec.
Local Unset Implicit Arguments.

Section KReads.
  Context {V K : Type}.
  Notation SKL := (skl V K).
  Variable a : answers V K.
  Variable u : calls V K.
  Variable dflt : nat.
  Notation key := (a_key a).
  Notation kltb := (a_klt a).
  Notation keqb := (a_keq a).
  Notation vltb := (a_vlt a).
  Notation eqb := (a_eq a).
  Notation ltb := (by_key key kltb).
  Hypothesis HT : TotalOrder kltb keqb.
  Hypothesis HE : EqCompat ltb eqb.
  Hypothesis Hd : 1 <= dflt.
  Notation reach := (skl_reach key kltb keqb vltb eqb dflt).
  Notation do := (skl_do key kltb keqb vltb eqb dflt).
  Notation pklt := (total2 kltb).
  Notation pkeq := (total2 keqb).
  Notation pvlt := (total2 vltb).
  Notation peq := (total2 eqb).
  Notation pkf := (total1 key).
  Notation kf := (c_key u).
  Notation klt := (c_klt u).
  Notation keq := (c_keq u).
  Notation eq := (c_eq u).
  Notation vlt := (c_vlt u).

  Definition R (l : list V) (s : SKL) : Prop := reach s /\ kshows s l.
  Definition alike (s s' : SKL) : Prop :=
    lists (kc s') = lists (kc s) /\ maxes (kc s') = maxes (kc s) /\ len (kc s') = len (kc s) /\ load (kc s') = load (kc s) /\ keys s' = keys s.
  Lemma alike_refl s : alike s s.
  Proof. unfold alike. auto. Qed.
  Lemma alike_trans s1 s2 s3 : alike s1 s2 -> alike s2 s3 -> alike s1 s3.
  Proof. intros (A1 & A2 & A3 & A4 & A5) (B1 & B2 & B3 & B4 & B5). unfold alike. rewrite B1, B2, B3, B4, B5. auto. Qed.
  Lemma ktouch_alike s s' : ktouch s s' -> alike s s'.
  Proof. intros [H T]. unfold alike. rewrite (touch_lists _ _ T), (touch_maxes _ _ T), (touch_len _ _ T), (touch_load _ _ T). auto. Qed.
  Lemma R_shape l s : R l s -> Shape pkf s.
  Proof. intros [H _]. apply (kreach_inv key kltb keqb vltb eqb dflt HT HE Hd s H). Qed.

  Lemma query_alike o s : Shape pkf s -> kquery o -> alike s (snd (do o s)).
  Proof.
    intros HS Hq. pose proof (shape_core _ _ HS) as HC. pose proof (ktouch_refl pkf s HS) as HR.
    assert (X : forall A (inj : A -> out V) (m : M SKL A) r s', m s = (r, s') -> ktouch s s' -> alike s (snd (observe inj m s))).
    { intros A inj m r s' E H. unfold observe. rewrite E. destruct r; apply ktouch_alike; exact H. }
    assert (Y : forall A (inj : A -> out V) (m : M (core V K) A) r c', m (kc s) = (r, c') -> touch (kc s) c' ->
      alike s (snd (observe inj (oncore (skl_vt pklt pkf) m) s))).
    { intros A inj m r c' E H. destruct (oncore_ktouch pklt pkf m s r c' E H) as (s' & E' & H'). exact (X _ inj _ r s' E' H'). }
    pose proof (touch_refl _ HC) as HR0. unfold skl_do.
    destruct o as [o| | |]; cbn [kquery] in Hq; cbn [skl_step].
    - destruct o; simpl in Hq; try contradiction; cbn [skl_lstep].
      + destruct (skl_contains_gen peq pklt pkeq pkf v s HS) as (r & E & _). exact (X _ _ _ _ _ E HR).
      + destruct (getitem_int_ok (kc s) i HC) as (c' & E & H). exact (Y _ _ _ _ _ E H).
      + destruct (getitem_slice_ok (kc s) sl HC) as (c' & E & H). exact (Y _ _ _ _ _ E H).
      + exact (Y _ _ _ _ _ Logic.eq_refl HR0).
      + exact (Y _ _ _ _ _ Logic.eq_refl HR0).
      + exact (Y _ _ _ _ _ (reversed_ok (kc s)) HR0).
      + destruct (skl_bisect_left_gen pklt pkf v s HS) as (r & s' & E & H & _). exact (X _ _ _ _ _ E H).
      + destruct (skl_bisect_right_gen pklt pkf v s HS) as (r & s' & E & H & _). exact (X _ _ _ _ _ E H).
      + destruct (skl_count_gen peq pklt pkeq pkf v s HS) as (r & E & _). exact (X _ _ _ _ _ E HR).
      + destruct (skl_index_gen peq pklt pkeq pkf v start stop s HS) as (r & s' & E & H & _). exact (X _ _ _ _ _ E H).
      + destruct (irange_gen pklt pkf mn mx imin imax reverse s HS) as (r & E & _). exact (X _ _ _ _ _ E HR).
      + destruct (islice_ok (kc s) start stop reverse HC) as (r & c' & E & H & _). exact (Y _ _ _ _ _ E H).
      + destruct (compare_gen pvlt peq op other (kc s)) as (r & E & _). exact (Y _ _ _ _ _ E HR0).
    - destruct (bisect_key_left_gen pklt pkf k s HS) as (r & s' & E & H & _). exact (X _ _ _ _ _ E H).
    - destruct (bisect_key_right_gen pklt pkf k s HS) as (r & s' & E & H & _). exact (X _ _ _ _ _ E H).
    - destruct (irange_key_gen pklt pkf mn mx imin imax reverse s HS) as (r & E & _). exact (X _ _ _ _ _ E HR).
  Qed.
  Lemma query_ok (o : kop V K) : kquery o -> kop_ok o.
  Proof. destruct o as [[]| | |]; simpl; tauto. Qed.
  Lemma reach_alike l s s' : R l s -> reach s' -> alike s s' -> R l s'.
  Proof. intros [_ H] H' (A & _). split; [exact H'|]. apply kshows_iff in H. apply kshows_iff. unfold contents in *. rewrite A. exact H. Qed.
  Lemma queries_ok qs : forall l s, Forall kquery qs -> R l s -> R l (snd (run do qs s)) /\ alike s (snd (run do qs s)).
  Proof.
    induction qs as [|o qs IH]; intros l s Hq H; [split; [exact H|apply alike_refl]|]. inversion Hq as [|? ? Ho Hq']; subst. cbn [run].
    pose proof (query_alike o s (R_shape l s H) Ho) as A.
    pose proof (kreach_step key kltb keqb vltb eqb dflt s o (proj1 H) (query_ok o Ho)) as H1.
    destruct (do o s) as [r s1] eqn:E. cbn [snd] in A, H1.
    destruct (IH l s1 Hq' (reach_alike l s s1 H H1 A)) as [B1 B2]. destruct (run do qs s1) as [rs s2]. cbn [snd] in *.
    split; [exact B1|eapply alike_trans; eauto].
  Qed.

  (** ** Calls while the list has the contents [l] and the lists of [s0] *)
  Section At.
    Variable l : list V.
    Variable s0 : SKL.
    Hypothesis HU : kreads a dflt u l.
    Definition near (s : SKL) : Prop := R l s /\ alike s0 s.

    Lemma call {A} (m : M SKL A) x s : asks_and a dflt l m x -> near s -> exists s1, m s = (Ok x, s1) /\ near s1.
    Proof.
      intros Hm [H A0]. destruct (Hm s (proj1 H) (proj2 H)) as (qs & Hq & E). eexists. split; [exact E|].
      destruct (queries_ok qs l s Hq H) as [B1 B2]. split; [exact B1|eapply alike_trans; eauto].
    Qed.
    (** [m] is [r], whatever it reads on the way. *)
    Definition gives {A} (m : M SKL A) (r : res A) : Prop := forall s, near s -> exists s1, m s = (r, s1) /\ near s1.
    Lemma gives_ret {A} (x : A) : gives (ret x) (Ok x).
    Proof. intros s H. exists s. split; [reflexivity|exact H]. Qed.
    Lemma gives_lift {A} (r : res A) : gives (liftr r) r.
    Proof. intros s H. exists s. split; [reflexivity|exact H]. Qed.
    Lemma gives_raise {A} e : gives (@raise SKL A e) (Err e).
    Proof. intros s H. exists s. split; [reflexivity|exact H]. Qed.
    Lemma gives_bind {A B} (m : M SKL A) r (f : A -> M SKL B) g : gives m r -> (forall x, r = Ok x -> gives (f x) (g x)) -> gives (bind m f) (rbind r g).
    Proof.
      intros Hm Hf s H. destruct (Hm s H) as (s1 & E & H1). unfold bind. rewrite E. destruct r as [x|e]; cbn [rbind].
      - exact (Hf x Logic.eq_refl s1 H1).
      - exists s1. auto.
    Qed.
    Lemma gives_kf v : gives (kf v) (pkf v).
    Proof. intros s H. apply call; [apply HU|exact H]. Qed.
    Lemma gives_klt x y : gives (klt x y) (pklt x y).
    Proof. intros s H. apply call; [apply HU|exact H]. Qed.
    Lemma gives_keq x y : gives (keq x y) (pkeq x y).
    Proof. intros s H. apply call; [apply HU|exact H]. Qed.
    Lemma gives_eq x y : gives (eq x y) (peq x y).
    Proof. intros s H. apply call; [apply HU|exact H]. Qed.
    Lemma gives_vlt x y : gives (vlt x y) (pvlt x y).
    Proof. intros s H. apply call; [apply HU|exact H]. Qed.
    Ltac g1 := first
      [ apply gives_ret | apply gives_lift | apply gives_raise | apply gives_kf | apply gives_klt | apply gives_keq | apply gives_eq | apply gives_vlt
      | (apply gives_bind; [|intros ? _]) ].

    Lemma bisr_loop fuel xs x : forall lo hi, gives (kr_bisect_right_loop klt fuel xs x lo hi) (bisect_right_loop pklt fuel xs x lo hi).
    Proof.
      induction fuel as [|fuel IH]; intros lo hi; cbn [kr_bisect_right_loop bisect_right_loop]; [g1|].
      destruct (lo <? hi); [|g1]. cbv zeta. g1; [g1|]. g1; [g1|]. match goal with b : bool |- _ => destruct b end; apply IH.
    Qed.
    Lemma bisl_loop fuel xs x : forall lo hi, gives (kr_bisect_left_loop klt fuel xs x lo hi) (bisect_left_loop pklt fuel xs x lo hi).
    Proof.
      induction fuel as [|fuel IH]; intros lo hi; cbn [kr_bisect_left_loop bisect_left_loop]; [g1|].
      destruct (lo <? hi); [|g1]. cbv zeta. g1; [g1|]. g1; [g1|]. match goal with b : bool |- _ => destruct b end; apply IH.
    Qed.
    Lemma gives_bisr xs x : gives (kr_bisect_right klt xs x) (bisect_right pklt xs x).
    Proof. apply bisr_loop. Qed.
    Lemma gives_bisl xs x : gives (kr_bisect_left klt xs x) (bisect_left pklt xs x).
    Proof. apply bisl_loop. Qed.
    Lemma gives_mapM {A B} (f : A -> M SKL B) g xs : (forall x, gives (f x) (g x)) -> gives (mapM f xs) (mapR g xs).
    Proof.
      intros H. induction xs as [|x xs IH]; cbn [mapM mapR]; [g1|]. g1; [apply H|]. g1; [exact IH|]. g1.
    Qed.
    Lemma sort_ins_gives x t : gives (kr_sort_ins klt x t) (sort_ins (fun p q => pklt (fst p) (fst q)) x t).
    Proof.
      induction t as [|y t IH]; cbn [kr_sort_ins sort_ins]; [g1|]. g1; [g1|]. match goal with b : bool |- _ => destruct b end; [g1|].
      g1; [exact IH|]. g1.
    Qed.
    Lemma sort_acc_gives t : forall acc, gives (kr_sort_acc klt acc t) (sort_acc (fun p q => pklt (fst p) (fst q)) acc t).
    Proof.
      induction t as [|x t IH]; intros acc; cbn [kr_sort_acc sort_acc]; [g1|]. g1; [apply sort_ins_gives|]. apply IH.
    Qed.
    Lemma sorted_gives xs : gives (kr_sorted_key klt kf xs) (py_sorted_key pklt pkf xs).
    Proof.
      unfold kr_sorted_key, py_sorted_key. g1; [apply gives_mapM; intros; g1|]. g1; [apply sort_acc_gives|]. g1.
    Qed.
    Lemma scan_gives fuel s k v : forall p i n, gives (kr_scan_loop eq keq fuel s k v p i n) (scan_loop peq pkeq fuel s k v p i n).
    Proof.
      induction fuel as [|fuel IH]; intros p i n; cbn [kr_scan_loop scan_loop]; [g1|].
      g1; [g1|]. g1; [g1|]. g1; [g1|]. match goal with |- gives (if negb ?b then _ else _) _ => destruct b; cbn [negb] end; [|g1].
      g1; [g1|]. g1; [g1|]. g1; [g1|]. match goal with |- gives (if ?b then _ else _) _ => destruct b end; [g1|]. cbv zeta.
      destruct (i + 1 =? n); [|apply IH]. destruct (p + 1 =? length (keys s)); [g1|]. g1; [g1|]. apply IH.
    Qed.
    Lemma count_gives fuel s k v : forall p i n t, gives (kr_count_loop eq keq fuel s k v p i n t) (count_loop peq pkeq fuel s k v p i n t).
    Proof.
      induction fuel as [|fuel IH]; intros p i n t; cbn [kr_count_loop count_loop]; [g1|].
      g1; [g1|]. g1; [g1|]. g1; [g1|]. match goal with |- gives (if negb ?b then _ else _) _ => destruct b; cbn [negb] end; [|g1].
      g1; [g1|]. g1; [g1|]. g1; [g1|]. cbv zeta.
      destruct (i + 1 =? n); [|apply IH]. destruct (p + 1 =? length (keys s)); [g1|]. g1; [g1|]. apply IH.
    Qed.
    Lemma cmp_elt_gives op x y : gives (kr_cmp_elt vlt eq op x y) (cmp_elt pvlt peq op x y).
    Proof. destruct op; cbn [kr_cmp_elt cmp_elt]; g1; g1. Qed.
    Lemma cmp_loop_gives op n m : forall xs ys, gives (kr_cmp_loop vlt eq op n m xs ys) (cmp_loop pvlt peq op n m xs ys).
    Proof.
      induction xs as [|x xs IH]; intros [|y ys]; cbn [kr_cmp_loop cmp_loop]; try g1; [g1|].
      match goal with b : bool |- _ => destruct b end; [apply IH|apply cmp_elt_gives].
    Qed.

    (** [m] and [m'] answer alike and read only. *)
    Definition loose {A} (m m' : M SKL A) : Prop := forall s s', near s -> near s' ->
      exists r s1 s1', m s = (r, s1) /\ m' s' = (r, s1') /\ near s1 /\ near s1'.
    Lemma loose_gives {A} (m : M SKL A) r : gives m r -> loose m (liftr r).
    Proof. intros H s s' N N'. destruct (H s N) as (s1 & E & N1). exists r, s1, s'. auto. Qed.
    Lemma loose_ret {A} (x : A) : loose (ret x) (ret x).
    Proof. intros s s' N N'. exists (Ok x), s, s'. auto. Qed.
    Lemma loose_raise {A} e : loose (@raise SKL A e) (@raise SKL A e).
    Proof. intros s s' N N'. exists (Err e), s, s'. auto. Qed.
    Lemma loose_bind {A B} (m m' : M SKL A) (f g : A -> M SKL B) : loose m m' -> (forall x, loose (f x) (g x)) -> loose (bind m f) (bind m' g).
    Proof.
      intros Hm Hf s s' N N'. destruct (Hm s s' N N') as (r & s1 & s1' & E & E' & N1 & N1'). unfold bind. rewrite E, E'. destruct r as [x|e].
      - exact (Hf x s1 s1' N1 N1').
      - exists (Err e), s1, s1'. auto.
    Qed.
    Lemma loose_lift {A B} (r : res A) (f g : A -> M SKL B) : (forall x, r = Ok x -> loose (f x) (g x)) -> loose (bind (liftr r) f) (bind (liftr r) g).
    Proof.
      intros Hf s s' N N'. unfold bind, liftr. destruct r as [x|e]; [exact (Hf x Logic.eq_refl s s' N N')|]. exists (Err e), s, s'. auto.
    Qed.
    Lemma loose_step {A B} (m : M SKL A) r (f g : A -> M SKL B) : gives m r -> (forall x, r = Ok x -> loose (f x) (g x)) -> loose (bind m f) (bind (liftr r) g).
    Proof.
      intros Hm Hf s s' N N'. destruct (Hm s N) as (s1 & E & N1). unfold bind, liftr. rewrite E.
      destruct r as [x|e]; [exact (Hf x Logic.eq_refl s1 s' N1 N')|]. exists (Err e), s1, s'. auto.
    Qed.
    Lemma loose_get {A} (f g : SKL -> M SKL A) : (forall s s', near s -> near s' -> loose (f s) (g s')) -> loose (bind get f) (bind get g).
    Proof. intros H s s' N N'. rewrite !bind_get. exact (H s s' N N' s s' N N'). Qed.

    (** [_loc]. *)
    Lemma near_shape s : near s -> Shape pkf s.
    Proof. intros [H _]. eapply R_shape; eauto. Qed.
    Lemma near_loc p i j s : near s -> Bnd (lists (kc s)) p i j -> exists s1, shared klt kf (loc p i) s = (Ok j, s1) /\ near s1.
    Proof.
      intros N HB. pose proof (near_shape s N) as HS. destruct (kloc_ok pklt pkf s p i j HS HB) as (s1 & E & T). exists s1. split; [exact E|].
      assert (A1 : alike s s1) by (apply ktouch_alike; exact T). destruct N as [H A0]. split; [|eapply alike_trans; eauto].
      apply (reach_alike l s); [exact H| |exact A1]. destruct (Nat.eq_dec p 0) as [->|Hp].
      { cbn in E. assert (Q : set_kc (kc s) s = s1) by congruence. rewrite <- Q. destruct s. exact (proj1 H). }
      (* The index is built by [sl[n]] as well, [n] the length of the first sublist. *)
      pose proof (shape_core _ _ HS) as HC. destruct HB as (X & r & Y & EX & HX & _ & _).
      destruct X as [|l0 X]; [cbn in HX; lia|].
      set (n := length l0).
      assert (G : snd (do (KList (LGet (Z.of_nat n))) s) = s1); [|rewrite <- G; apply kreach_step; [apply H|exact I]].
      pose proof (co_ne _ HC) as Hne. rewrite EX in Hne.
      assert (Hn : 0 < n) by (inversion Hne as [|? ? Q _]; unfold n; destruct l0; [congruence|cbn; lia]).
      assert (Hr : 0 < length r).
      { rewrite Forall_forall in Hne. assert (Q : r <> []) by (apply Hne; apply in_or_app; right; left; reflexivity). destruct r; [congruence|cbn; lia]. }
      assert (Hl : n < len (kc s)).
      { rewrite (co_len _ HC). unfold contents. rewrite EX. cbn [app concat]. rewrite concat_app. cbn [concat]. rewrite !app_length. fold n. lia. }
      unfold skl_do. cbn [skl_step skl_lstep]. unfold observe, oncore, zoom, skl_vt. cbn [vt_get vt_put].
      assert (E2 : exists c r2, ensure_index (kc s) = (Ok tt, c) /\ getitem_int (Z.of_nat n) (kc s) = (r2, c) /\ s1 = set_kc c s).
      { assert (H2 : 2 <= length (lists (kc s))) by (rewrite EX, app_length; cbn; lia).
        destruct (ensure_index_ok (kc s) HC H2) as (c & Ee & _ & _). exists c. eexists. split; [exact Ee|]. split.
        - destruct (getitem_int_ok (kc s) (Z.of_nat n) HC) as (c2 & Eg & _). rewrite Eg. f_equal.
          unfold getitem_int in Eg. rewrite bind_get in Eg.
          destruct (Nat.eqb_spec (len (kc s)) 0) as [|_]; [lia|]. destruct (Z.eqb_spec (Z.of_nat n) 0) as [|_]; [lia|].
          destruct (Z.eqb_spec (Z.of_nat n) (-1)) as [|_]; [lia|].
          assert (G0 : getn (lists (kc s)) 0 = Ok l0) by (rewrite EX; reflexivity). rewrite (bind_lift _ _ _ _ G0) in Eg.
          destruct (Z.ltb_spec (Z.of_nat n) (Z.of_nat (length l0))) as [Q|_]; [unfold n in Q; lia|]. rewrite andb_false_r in Eg.
          destruct (getlast (lists (kc s))) as [ll|e] eqn:El.
          2:{ exfalso. destruct (getlast_ne (lists (kc s))) as [z Q]; [rewrite EX; discriminate|]. congruence. }
          rewrite (bind_lift _ _ _ _ Logic.eq_refl) in Eg. cbv zeta in Eg.
          destruct (Z.ltb_spec (Z.of_nat n) 0) as [|_]; [lia|]. rewrite andb_false_r in Eg.
          assert (P : exists r3, Model.pos_of (Z.of_nat n) (kc s) = (r3, c)).
          { unfold Model.pos_of. rewrite bind_get.
            destruct (Z.ltb_spec (Z.of_nat n) 0) as [|_]; [lia|]. destruct (Z.leb_spec (Z.of_nat (len (kc s))) (Z.of_nat n)) as [|_]; [lia|].
            rewrite Nat2Z.id. unfold pos_nonneg. rewrite bind_get, (bind_lift _ _ _ _ G0).
            destruct (Nat.ltb_spec n (length l0)) as [Q|_]; [unfold n in Q; lia|].
            unfold pos_tree. rewrite (bind_ok _ _ _ _ _ Ee). unfold bind, get, liftr, ret. destruct (pos_loop _ _ _ _ _) as [q|]; [destruct (subc (fst q) (offset c))|]; eexists; reflexivity. }
          destruct P as ([[p' i']|e] & P); unfold bind, liftr in Eg; rewrite P in Eg; [|congruence].
          destruct (getn (lists (kc s)) (fst (p', i'))); [|congruence]. congruence.
        - unfold oncore, zoom, skl_vt, loc in E. cbn [vt_get vt_put] in E. destruct (Nat.eqb_spec p 0) as [|_]; [congruence|].
          rewrite (bind_ok _ _ _ _ _ Ee) in E. unfold bind, get, liftr, ret in E.
          destruct (loc_loop _ _ _ _); injection E; intros; subst; reflexivity. }
      destruct E2 as (c & r2 & _ & E3 & ->). rewrite E3. destruct r2; reflexivity.
    Qed.
    Lemma loose_loc p i j : Bnd (lists (kc s0)) p i j -> loose (shared klt kf (loc p i)) (oncore (skl_vt pklt pkf) (loc p i)).
    Proof.
      intros HB s s' N N'.
      destruct (near_loc p i j s N ltac:(rewrite (proj1 (proj2 N)); exact HB)) as (s1 & E & N1).
      destruct (near_loc p i j s' N' ltac:(rewrite (proj1 (proj2 N')); exact HB)) as (s1' & E' & N1').
      exists (Ok j), s1, s1'. auto.
    Qed.
    Lemma bnd_in s p i ks k : near s -> getn (keys s0) p = Ok ks -> getn ks i = Ok k -> exists j, Bnd (lists (kc s0)) p i j.
    Proof.
      intros N Hp Hi. destruct (near_shape s N) as (rows & H0 & _). destruct N as [_ (A1 & _ & _ & _ & A5)].
      rewrite <- A1. rewrite <- A5 in Hp. rewrite (sh_keys _ _ _ H0) in Hp. rewrite (sh_lists _ _ _ H0).
      pose proof (sh_rows _ _ _ H0) as HR. clear H0. revert p Hp. induction HR as [|r rows Hr HR IH]; intros p Hp; [destruct p; discriminate|].
      destruct p as [|p].
      - injection Hp as <-. apply getn_Ok_lt in Hi. rewrite (row_ok_len _ _ Hr) in Hi. exists i. exists [], (r_l r), (map r_l rows).
        split; [reflexivity|]. split; [reflexivity|]. split; [lia|reflexivity].
      - destruct (IH p Hp) as (j & X & x & Y & E & E1 & E2 & E3). exists (length (r_l r) + j). exists (r_l r :: X), x, Y. cbn [map app]. rewrite E.
        split; [reflexivity|]. split; [cbn; lia|]. split; [exact E2|]. cbn [concat]. rewrite app_length. lia.
    Qed.

    (** ** Queries *)
    Lemma scan_alike fuel s s' k v : keys s' = keys s -> lists (kc s') = lists (kc s) ->
      forall p i n, scan_loop peq pkeq fuel s' k v p i n = scan_loop peq pkeq fuel s k v p i n.
    Proof.
      intros A B. induction fuel as [|fuel IH]; intros p i n; cbn [scan_loop]; [reflexivity|]. rewrite A, B.
      destruct (getn (keys s) p) as [ks|]; cbn [rbind]; [|reflexivity]. destruct (getn ks i) as [k1|]; cbn [rbind]; [|reflexivity].
      destruct (pkeq k1 k) as [same|]; cbn [rbind]; [|reflexivity]. destruct (negb same); [reflexivity|].
      destruct (getn (lists (kc s)) p) as [ls|]; cbn [rbind]; [|reflexivity]. destruct (getn ls i) as [x|]; cbn [rbind]; [|reflexivity].
      destruct (peq x v) as [found|]; cbn [rbind]; [|reflexivity]. destruct found; [reflexivity|]. cbv zeta. destruct (i + 1 =? n); [|apply IH].
      destruct (p + 1 =? length (keys s)); [reflexivity|]. destruct (getn (keys s) (p + 1)); cbn [rbind]; [apply IH|reflexivity].
    Qed.
    Lemma count_alike fuel s s' k v : keys s' = keys s -> lists (kc s') = lists (kc s) ->
      forall p i n t, count_loop peq pkeq fuel s' k v p i n t = count_loop peq pkeq fuel s k v p i n t.
    Proof.
      intros A B. induction fuel as [|fuel IH]; intros p i n t; cbn [count_loop]; [reflexivity|]. rewrite A, B.
      destruct (getn (keys s) p) as [ks|]; cbn [rbind]; [|reflexivity]. destruct (getn ks i) as [k1|]; cbn [rbind]; [|reflexivity].
      destruct (pkeq k1 k) as [same|]; cbn [rbind]; [|reflexivity]. destruct (negb same); [reflexivity|].
      destruct (getn (lists (kc s)) p) as [ls|]; cbn [rbind]; [|reflexivity]. destruct (getn ls i) as [x|]; cbn [rbind]; [|reflexivity].
      destruct (peq x v) as [found|]; cbn [rbind]; [|reflexivity]. cbv zeta. destruct (i + 1 =? n); [|apply IH].
      destruct (p + 1 =? length (keys s)); [reflexivity|]. destruct (getn (keys s) (p + 1)); cbn [rbind]; [apply IH|reflexivity].
    Qed.
    (** The same lists on both sides. *)
    Ltac fields N := destruct (proj2 N) as (?A1 & ?A2 & ?A3 & ?A4 & ?A5).
    Ltac lget := apply loose_get; let s := fresh "s" in let s' := fresh "s'" in intros s s' ?N ?N';
      match goal with N : near s, N' : near s' |- _ =>
        let A := fresh in let B := fresh in pose proof (proj2 N) as A; pose proof (proj2 N') as B;
        unfold alike in A, B; decompose [and] A; decompose [and] B; clear A B;
        repeat match goal with H : _ s = _ |- _ => rewrite ?H; clear H | H : _ (kc s) = _ |- _ => rewrite ?H; clear H
                             | H : _ s' = _ |- _ => rewrite ?H; clear H | H : _ (kc s') = _ |- _ => rewrite ?H; clear H end end.
    Ltac l1 := cbv zeta; first
      [ apply loose_ret | apply loose_raise
      | (apply loose_lift; intros ? ?)
      | (apply loose_bind; [apply loose_gives; first [apply gives_kf|apply gives_bisl|apply gives_bisr|apply gives_keq|apply gives_eq|apply gives_vlt|apply gives_klt]|intros ?])
      | match goal with |- loose (if ?b then _ else _) _ => destruct b end ].

    Lemma scan_fuel_alike s s' : alike s s' -> scan_fuel s' = scan_fuel s.
    Proof. intros (_ & _ & _ & _ & A). unfold scan_fuel. rewrite A. reflexivity. Qed.
    Lemma find_loose v : loose (kr_find eq klt keq kf v) (skl_find peq pklt pkeq pkf v).
    Proof.
      unfold kr_find, skl_find. apply loose_get. intros s s' [R1 A] [R2 B].
      assert (C : alike s s') by (destruct A as (? & ? & ? & ? & ?), B as (? & ? & ? & ? & ?); repeat split; congruence).
      rewrite (scan_fuel_alike s s' C). destruct C as (C1 & C2 & C3 & C4 & C5). rewrite C2, C5. clear A B.
      destruct (is_nil (maxes (kc s))); [l1|]. l1. l1. destruct (_ =? length (maxes (kc s))); [l1|]. l1. l1.
      rewrite (scan_alike _ s s' _ _ C5 C1). apply loose_gives, scan_gives.
    Qed.
    Lemma contains_loose v : loose (kr_contains eq klt keq kf v) (skl_contains peq pklt pkeq pkf v).
    Proof. unfold kr_contains, skl_contains. apply loose_bind; [apply find_loose|]. intros r. apply loose_ret. Qed.
    Lemma count_loose v : loose (kr_count eq klt keq kf v) (skl_count peq pklt pkeq pkf v).
    Proof.
      unfold kr_count, skl_count. apply loose_get. intros s s' [R1 A] [R2 B].
      assert (C : alike s s') by (destruct A as (? & ? & ? & ? & ?), B as (? & ? & ? & ? & ?); repeat split; congruence).
      rewrite (scan_fuel_alike s s' C). destruct C as (C1 & C2 & C3 & C4 & C5). rewrite C2, C5. clear A B.
      destruct (is_nil (maxes (kc s))); [l1|]. l1. l1. destruct (_ =? length (maxes (kc s))); [l1|]. l1. l1.
      rewrite (count_alike _ s s' _ _ C5 C1). apply loose_gives, count_gives.
    Qed.
    Lemma rank_key_left k : loose (kr_rank_key klt kf (kr_bisect_left klt) k) (skl_bisect_key_left pklt pkf k).
    Proof.
      unfold kr_rank_key, skl_bisect_key_left. apply loose_get. intros s s' N N'. pose proof N as [R1 A]. pose proof N' as [R2 B].
      destruct A as (A1 & A2 & A3 & A4 & A5), B as (B1 & B2 & B3 & B4 & B5). rewrite A2, A3, A5, B2, B3, B5.
      destruct (is_nil (maxes (kc s0))); [l1|]. apply loose_step; [apply gives_bisl|]. intros pos Ep.
      destruct (Nat.eqb_spec pos (length (maxes (kc s0)))) as [_|Hn]; [l1|]. rewrite <- A2 in Ep, Hn.
      destruct (shape_search_left pklt pkf k s pos (near_shape s N) Ep Hn) as (ks & l1 & G1 & G2 & G3 & G4). rewrite A5 in G1. rewrite G1.
      apply loose_lift. intros ks' [= <-]. apply loose_step; [apply gives_bisl|]. intros i Ei.
      destruct (G4 i Ei) as [j HL]. apply locate_bnd in HL. rewrite A1 in HL. exact (loose_loc pos i j HL).
    Qed.
    Lemma rank_key_right k : loose (kr_rank_key klt kf (kr_bisect_right klt) k) (skl_bisect_key_right pklt pkf k).
    Proof.
      unfold kr_rank_key, skl_bisect_key_right. apply loose_get. intros s s' N N'. pose proof N as [R1 A]. pose proof N' as [R2 B].
      destruct A as (A1 & A2 & A3 & A4 & A5), B as (B1 & B2 & B3 & B4 & B5). rewrite A2, A3, A5, B2, B3, B5.
      destruct (is_nil (maxes (kc s0))); [l1|]. apply loose_step; [apply gives_bisr|]. intros pos Ep.
      destruct (Nat.eqb_spec pos (length (maxes (kc s0)))) as [_|Hn]; [l1|]. rewrite <- A2 in Ep, Hn.
      destruct (shape_search_right pklt pkf k s pos (near_shape s N) Ep Hn) as (ks & l1 & G1 & G2 & G3 & G4). rewrite A5 in G1. rewrite G1.
      apply loose_lift. intros ks' [= <-]. apply loose_step; [apply gives_bisr|]. intros i Ei.
      destruct (G4 i Ei) as [j HL]. apply locate_bnd in HL. rewrite A1 in HL. exact (loose_loc pos i j HL).
    Qed.
    Lemma rank_key_loose (left : bool) k :
      loose (kr_rank_key klt kf (if left then kr_bisect_left klt else kr_bisect_right klt) k)
        (if left then skl_bisect_key_left pklt pkf k else skl_bisect_key_right pklt pkf k).
    Proof. destruct left; [apply rank_key_left|apply rank_key_right]. Qed.
    Lemma rank_loose (left : bool) v :
      loose (kr_rank klt kf (if left then kr_bisect_left klt else kr_bisect_right klt) v)
        (if left then skl_bisect_left pklt pkf v else skl_bisect_right pklt pkf v).
    Proof.
      unfold kr_rank, skl_bisect_left, skl_bisect_right.
      assert (Q : loose (key <- kf v ;; kr_rank_key klt kf (if left then kr_bisect_left klt else kr_bisect_right klt) key)
        (key <- liftr (pkf v) ;; if left then skl_bisect_key_left pklt pkf key else skl_bisect_key_right pklt pkf key)).
      { l1. apply rank_key_loose. }
      destruct left; exact Q.
    Qed.
    Lemma index_loop_loose fuel k v a1 b1 : forall p i n, loose (kr_index_loop eq klt keq kf fuel k v a1 b1 p i n) (index_loop peq pklt pkeq pkf fuel k v a1 b1 p i n).
    Proof.
      induction fuel as [|fuel IH]; intros p i n; cbn [kr_index_loop index_loop]; [l1|].
      apply loose_get. intros s s' N N'. pose proof N as [_ A]. pose proof N' as [_ B].
      destruct A as (A1 & A2 & A3 & A4 & A5), B as (B1 & B2 & B3 & B4 & B5). rewrite A1, A5, B1, B5.
      apply loose_lift. intros ks Hks. apply loose_lift. intros k1 Hk1. l1. destruct (negb _); [l1|]. l1. l1. l1.
      assert (C : loose (if i + 1 =? n then if p + 1 =? length (keys s0) then raise ValueError else
                  ks' <- liftr (getn (keys s0) (p + 1));; kr_index_loop eq klt keq kf fuel k v a1 b1 (p + 1) 0 (length ks')
                  else kr_index_loop eq klt keq kf fuel k v a1 b1 p (i + 1) n)
                 (if i + 1 =? n then if p + 1 =? length (keys s0) then raise ValueError else
                  ks' <- liftr (getn (keys s0) (p + 1));; index_loop peq pklt pkeq pkf fuel k v a1 b1 (p + 1) 0 (length ks')
                  else index_loop peq pklt pkeq pkf fuel k v a1 b1 p (i + 1) n)).
      { destruct (i + 1 =? n); [|apply IH]. destruct (p + 1 =? length (keys s0)); [l1|]. l1. apply IH. }
      cbv zeta. match goal with |- loose (if ?b then _ else _) _ => destruct b end; [|exact C].
      destruct (bnd_in s p i ks k1 N Hks Hk1) as [j HB]. apply loose_bind; [exact (loose_loc p i j HB)|]. intros q.
      destruct (_ && _); [l1|]. destruct (_ <? _)%Z; [l1|]. exact C.
    Qed.
    Lemma index_loose v a1 b1 : loose (kr_index eq klt keq kf v a1 b1) (skl_index peq pklt pkeq pkf v a1 b1).
    Proof.
      unfold kr_index, skl_index. apply loose_get. intros s s' [R1 A] [R2 B].
      assert (C : alike s s') by (destruct A as (? & ? & ? & ? & ?), B as (? & ? & ? & ? & ?); repeat split; congruence).
      rewrite (scan_fuel_alike s s' C). destruct C as (C1 & C2 & C3 & C4 & C5). rewrite C2, C3, C5. clear A B.
      destruct (len (kc s) =? 0); [l1|]. cbv zeta. destruct (_ <=? _)%Z; [l1|]. l1. l1. destruct (_ =? length (maxes (kc s))); [l1|]. l1. l1.
      apply index_loop_loose.
    Qed.
    Lemma irange_key_loose mn mx i1 i2 rv : loose (kr_irange_key klt mn mx i1 i2 rv) (skl_irange_key pklt mn mx i1 i2 rv).
    Proof.
      unfold kr_irange_key, skl_irange_key. apply loose_get. intros s s' [R1 A] [R2 B].
      destruct A as (A1 & A2 & A3 & A4 & A5), B as (B1 & B2 & B3 & B4 & B5). cbv zeta. rewrite A1, A2, A5, B1, B2, B5.
      destruct (is_nil (maxes (kc s0))); [l1|]. apply loose_bind.
      { destruct mn as [m|]; [|l1]. destruct i1; l1; (destruct (_ =? length (maxes (kc s0))); [l1|]); l1; l1; l1. }
      intros [[p i]|]; [|l1]. apply loose_bind.
      { destruct mx as [m|]; [|l1; l1]. destruct i2; l1; (destruct (_ =? length (maxes (kc s0))); [l1; l1|]); l1; l1; l1. }
      intros q. apply loose_gives, gives_lift.
    Qed.
    Lemma key_opt_gives o : gives (kr_key_opt kf o) (key_opt pkf o).
    Proof. destruct o; cbn [kr_key_opt key_opt]; g1; g1. Qed.
    Lemma irange_loose mn mx i1 i2 rv : loose (kr_irange klt kf mn mx i1 i2 rv) (skl_irange pklt pkf mn mx i1 i2 rv).
    Proof.
      unfold kr_irange, skl_irange. apply loose_bind; [apply loose_gives, key_opt_gives|]. intros k1.
      apply loose_bind; [apply loose_gives, key_opt_gives|]. intros k2. apply irange_key_loose.
    Qed.
    Lemma compare_loose op other : loose (kr_compare vlt eq op other) (oncore (skl_vt pklt pkf) (compare pvlt peq op other)).
    Proof.
      intros s s' [R1 A] [R2 B]. pose proof A as (A1 & A2 & A3 & A4 & A5). pose proof B as (B1 & B2 & B3 & B4 & B5).
      unfold kr_compare, oncore, zoom, compare, skl_vt. cbn [vt_get vt_put]. rewrite !bind_get. cbv zeta. rewrite A1, A3, B1, B3.
      assert (P : forall r : res bool, exists s1', (let (r0, t) := (r, kc s') in (r0, set_kc t s')) = (r, s1') /\ near s1').
      { intros r. exists s'. split; [destruct s'; reflexivity|split; assumption]. }
      destruct (_ && _); [exists (Ok false), s; destruct (P (Ok false)) as (s1' & E & N); exists s1'; split; [reflexivity|]; split; [exact E|]; split; [split; assumption|exact N]|].
      destruct (_ && _); [exists (Ok true), s; destruct (P (Ok true)) as (s1' & E & N); exists s1'; split; [reflexivity|]; split; [exact E|]; split; [split; assumption|exact N]|].
      destruct (cmp_loop_gives op (len (kc s0)) (length other) (concat (lists (kc s0))) other s (conj R1 A)) as (s1 & E & N1).
      eexists _, s1. destruct (P (cmp_loop pvlt peq op (len (kc s0)) (length other) (concat (lists (kc s0))) other)) as (s1' & E' & N'). exists s1'.
      split; [exact E|]. split; [exact E'|]. split; [exact N1|exact N'].
    Qed.
    Lemma new_gives it : gives (kr_new klt kf dflt it) (skl_new pklt pkf dflt it).
    Proof.
      assert (Q : skl_new pklt pkf dflt it = (let! values := py_sorted_key pklt pkf it in let! cs := chunks dflt values in
        let! kss := mapR (mapR pkf) cs in let! ms := mapR getlast kss in Ok (mkskl (mkcore cs ms [] 0 (length values) dflt) kss))).
      { unfold skl_new, skl_update, bind, liftr, get. destruct (py_sorted_key pklt pkf it) as [values|]; cbn [rbind]; [|reflexivity].
        cbn [skl_empty kc core_empty maxes is_nil]. unfold skl_fill, modifyR. cbn [skl_empty kc core_empty load lists app keys].
        destruct (chunks dflt values) as [cs|]; cbn [rbind]; [|reflexivity]. destruct (mapR (mapR pkf) cs) as [kss|]; cbn [rbind]; [|reflexivity].
        destruct (mapR getlast kss) as [ms|]; reflexivity. }
      rewrite Q. unfold kr_new. g1; [apply sorted_gives|]. g1; [g1|]. g1; [apply gives_mapM; intros; apply gives_mapM; intros; g1|]. g1; [g1|]. g1.
    Qed.

    (** ** Changes: [m] does what [m'] does a little later *)
    Definition late {A} (m m' : M SKL A) : Prop := forall s, near s -> exists s', m s = m' s' /\ near s'.
    Lemma late_refl {A} (m : M SKL A) : late m m.
    Proof. intros s N. exists s. auto. Qed.
    Lemma late_gives {A B} (m : M SKL A) r (f g : A -> M SKL B) : gives m r -> (forall x, r = Ok x -> late (f x) (g x)) -> late (bind m f) (bind (liftr r) g).
    Proof.
      intros Hm Hf s N. destruct (Hm s N) as (s1 & E & N1). unfold bind at 1. rewrite E. unfold bind, liftr. destruct r as [x|e].
      - exact (Hf x Logic.eq_refl s1 N1).
      - exists s1. auto.
    Qed.
    Lemma late_get {A} (f g : SKL -> M SKL A) : (forall s, near s -> late (f s) (g s)) -> (forall s s', near s -> near s' -> g s = g s') ->
      late (bind get f) (bind get g).
    Proof. intros H H' s N. destruct (H s N s N) as (s1 & E & N1). exists s1. rewrite !bind_get, E, (H' s s1 N N1). auto. Qed.
    Lemma late_then {A B} (m m' : M SKL A) (f : A -> M SKL B) : late m m' -> late (bind m f) (bind m' f).
    Proof. intros H s N. destruct (H s N) as (s1 & E & N1). exists s1. unfold bind. rewrite E. auto. Qed.
    Lemma add_late v : late (kr_add klt kf v) (skl_add pklt pkf v).
    Proof.
      unfold kr_add, skl_add. apply late_gives; [apply gives_kf|]. intros k _. apply late_get.
      - intros s N. apply late_then. destruct (is_nil (maxes (kc s))); [apply late_refl|].
        apply late_gives; [apply gives_bisr|]. intros pos _. destruct (pos =? length (maxes (kc s))); [apply late_refl|].
        apply late_gives; [apply gives_lift|]. intros ks _. apply late_gives; [apply gives_bisr|]. intros idx _. apply late_refl.
      - intros s s' [_ (A1 & A2 & A3 & A4 & A5)] [_ (B1 & B2 & B3 & B4 & B5)]. rewrite A2, A5, B2, B5. reflexivity.
    Qed.
    Lemma find_late {A} v (f : option (nat * nat) -> M SKL A) :
      late (bind (kr_find eq klt keq kf v) f) (bind (skl_find peq pklt pkeq pkf v) f).
    Proof.
      intros s N. destruct (find_loose v s s N N) as (r & s1 & _ & E & _ & N1 & _).
      destruct (find_loose v s s1 N N1) as (r' & s2 & s1' & E' & P & _ & _). rewrite E in E'. injection E' as <- <-.
      assert (Z : s1' = s1).
      { destruct (skl_find_gen peq pklt pkeq pkf v s1 (near_shape s1 N1)) as [(e & P2 & _)|[P2|(? & ? & ? & ? & ? & P2 & _)]]; congruence. }
      subst s1'. exists s1. unfold bind. rewrite E, P. auto.
    Qed.
  End At.
End KReads.
