(** * Facts about ModelEffect.v

    The frame of a container is what is left of it when keys and maxes are forgotten: its lists, its length, its index.  It obeys the
    invariant of Shape.v for keys of type [unit], whatever comparisons and key functions did. *)
From Verif Require Import PyBase Model Spec History BaseFacts SpecFacts SliceFacts IndexFacts Shape CoreFacts VtFacts
  KeyFacts KeyLook ListSim HeapFacts HeapSim FaultSpec ModelEffect EffectSpec.
From Coq Require Import Sorting.Permutation Sorting.Sorted.
Local Unset Implicit Arguments.

Definition ukf {V} (_ : V) : res unit := Ok tt.
Definition units {A} (l : list A) : list unit := map (fun _ => tt) l.
Definition forgetc {V K} (c : core V K) : core V unit :=
  mkcore (lists c) (units (maxes c)) (index c) (offset c) (len c) (load c).
Definition forget {V K} (s : skl V K) : skl V unit := mkskl (forgetc (kc s)) (map units (keys s)).
Definition Frame {V K} (s : skl V K) : Prop := Shape ukf (forget s).

(** ** Operations that compare nothing, on the frame *)
Section Forget.
  Context {V K : Type}.
  Notation SKL := (skl V K).
  Definition FSim {A} (m : M SKL A) (m' : M (skl V unit) A) : Prop := forall s, m' (forget s) = (fst (m s), forget (snd (m s))).

  Lemma updn_map2 {A B} (f : A -> B) (g : A -> res A) (g' : B -> res B) l i :
    (forall x, g' (f x) = let! y := g x in Ok (f y)) ->
    updn (map f l) i g' = let! x := updn l i g in Ok (map f x).
  Proof.
    intros H. revert i. induction l as [|a l IH]; intros [|i]; cbn; try reflexivity.
    - rewrite H. destruct (g a); reflexivity.
    - rewrite IH. destruct (updn l i g); reflexivity.
  Qed.
  Lemma setn_map2 {A B} (f : A -> B) l i x : setn (map f l) i (f x) = let! y := setn l i x in Ok (map f y).
  Proof. unfold setn. apply updn_map2. reflexivity. Qed.
  Lemma getlast_map2 {A B} (f : A -> B) l : getlast (map f l) = let! x := getlast l in Ok (f x).
  Proof.
    destruct l as [|y l]; [reflexivity|]. destruct (@exists_last _ (y :: l) ltac:(discriminate)) as (a & z & ->).
    rewrite map_app, getlast_snoc. cbn [map]. rewrite getlast_snoc. reflexivity.
  Qed.
  Lemma insn_map2 {A B} (f : A -> B) l i x : insn (map f l) i (f x) = map f (insn l i x).
  Proof. unfold insn. rewrite map_app, <- firstn_map. cbn. rewrite <- skipn_map. reflexivity. Qed.
  Lemma deln_units l i : deln (@units K l) i = let! y := deln l i in Ok (units y).
  Proof. apply deln_map. Qed.
  Lemma units_length (l : list K) : length (units l) = length l.
  Proof. apply map_length. Qed.
  Lemma units_app (a b : list K) : units (a ++ b) = units a ++ units b.
  Proof. apply map_app. Qed.

  Lemma forget_expand pos : FSim (skl_expand pos) (skl_expand pos).
  Proof.
    intros [[ls ms ix off n ld] ks]. unfold skl_expand, modifyR, forget, forgetc. ev. rewrite getn_map.
    destruct (getn ks pos) as [k|e]; ev; [|reflexivity]. rewrite units_length.
    destruct (ld * 2 <? length k).
    - destruct (getn ls pos) as [l|e]; ev; [|reflexivity].
      destruct (setn ls pos (firstn ld l)) as [ls'|e]; ev; [|reflexivity].
      assert (E1 : firstn ld (units k) = units (firstn ld k)) by apply firstn_map.
      assert (E2 : skipn ld (units k) = units (skipn ld k)) by apply skipn_map.
      rewrite E1, E2, (setn_map2 (@units K)).
      destruct (setn ks pos (firstn ld k)) as [ks'|e]; ev; [|reflexivity].
      unfold units at 1. rewrite getlast_map2. destruct (getlast (firstn ld k)) as [m|e]; ev; [|reflexivity].
      assert (E3 : setn (units ms) pos tt = let! y := setn ms pos m in Ok (units y)) by apply (setn_map2 (fun _ => tt)).
      rewrite E3. destruct (setn ms pos m) as [ms'|e]; ev; [|reflexivity].
      unfold units at 1. rewrite getlast_map2. destruct (getlast (skipn ld k)) as [h|e]; ev; [|reflexivity].
      cbn [fst snd forget forgetc kc keys lists maxes index offset len load].
      assert (E4 : insn (units ms') (pos + 1) tt = units (insn ms' (pos + 1) h)) by apply (insn_map2 (fun _ => tt)).
      rewrite E4, (insn_map2 (@units K)). reflexivity.
    - unfold index_inc. ev. destruct (is_nil ix); [reflexivity|]. destruct (index_walk _ _ _); reflexivity.
  Qed.

  Lemma forget_delete pos idx : FSim (skl_delete pos idx) (skl_delete pos idx).
  Proof.
    intros [[ls ms ix off n ld] ks]. unfold skl_delete, bind, modifyR, modify, liftr, get, forget, forgetc. cbv zeta. ev.
    rewrite (updn_map2 (@units K) (fun l => deln l idx)) by (intros; apply deln_units).
    destruct (updn ks pos _) as [ks'|e]; ev; [|reflexivity].
    destruct (updn ls pos _) as [ls'|e]; ev; [|reflexivity].
    destruct (subc n 1) as [n'|e]; ev; [|reflexivity].
    rewrite getn_map. destruct (getn ks' pos) as [k|e]; ev; [|reflexivity]. rewrite units_length.
    destruct (ld / 2 <? length k).
    { unfold units at 1. rewrite getlast_map2. destruct (getlast k) as [m|e]; ev; [|reflexivity].
      assert (E3 : setn (units ms) pos tt = let! y := setn ms pos m in Ok (units y)) by apply (setn_map2 (fun _ => tt)).
      rewrite E3. destruct (setn ms pos m) as [ms'|e]; ev; [|reflexivity].
      unfold index_dec. ev. destruct (is_nil ix); [reflexivity|]. destruct (index_walk _ _ _); reflexivity. }
    rewrite map_length. destruct (1 <? length ks').
    { set (p := if pos =? 0 then pos + 1 else pos). ev.
      rewrite getn_map. destruct (getn ks' p) as [kp|e]; ev; [|reflexivity].
      rewrite (updn_map2 (@units K) (fun l => Ok (l ++ kp))) by (intros; cbn; rewrite units_app; reflexivity).
      destruct (updn ks' (p - 1) _) as [ks2|e]; ev; [|reflexivity].
      destruct (getn ls' p) as [lp|e]; ev; [|reflexivity].
      destruct (updn ls' (p - 1) _) as [ls2|e]; ev; [|reflexivity].
      rewrite getn_map. destruct (getn ks2 (p - 1)) as [l2|e]; ev; [|reflexivity].
      unfold units at 1. rewrite getlast_map2. destruct (getlast l2) as [m|e]; ev; [|reflexivity].
      assert (E3 : setn (units ms) (p - 1) tt = let! y := setn ms (p - 1) m in Ok (units y)) by apply (setn_map2 (fun _ => tt)).
      rewrite E3. destruct (setn ms (p - 1) m) as [ms'|e]; ev; [|reflexivity].
      destruct (deln ls2 p) as [ls3|e]; ev; [|reflexivity].
      rewrite deln_map. destruct (deln ks2 p) as [ks3|e]; ev; [|reflexivity].
      rewrite deln_units. destruct (deln ms' p) as [ms3|e]; ev; [|reflexivity].
      apply (forget_expand (p - 1) (mkskl (mkcore ls3 ms3 [] off n' ld) ks3)). }
    destruct (0 <? length k).
    { ev. unfold units at 1. rewrite getlast_map2. destruct (getlast k) as [m|e]; ev; [|reflexivity].
      assert (E3 : setn (units ms) pos tt = let! y := setn ms pos m in Ok (units y)) by apply (setn_map2 (fun _ => tt)).
      rewrite E3. destruct (setn ms pos m) as [ms'|e]; reflexivity. }
    ev. destruct (deln ls' pos) as [ls3|e]; ev; [|reflexivity].
    rewrite deln_map. destruct (deln ks' pos) as [ks3|e]; ev; [|reflexivity].
    rewrite deln_units. destruct (deln ms pos) as [ms3|e]; reflexivity.
  Qed.

  Lemma frame_core (s : SKL) : Frame s -> CoreOK (kc s).
  Proof. intros H. destruct (shape_core ukf _ H) as [H1 H2 H3]. constructor; assumption. Qed.
  Lemma touch_forget (c c' : core V K) : touch c c' -> touch (forgetc c) (forgetc c').
  Proof. intros (ix & off & -> & H). exists ix, off. split; [reflexivity|exact H]. Qed.
  Lemma frame_touch (s : SKL) c : Frame s -> touch (kc s) c -> Frame (set_kc c s).
  Proof. intros H T. apply (shape_touch ukf (forget s) (forgetc c) H). apply touch_forget. exact T. Qed.
  Lemma frame_empty off ld : 1 <= ld -> Frame (mkskl (mkcore [] [] [] off 0 ld) [] : SKL).
  Proof. apply (shape_empty ukf). Qed.
  Lemma frame_load (s : SKL) : Frame s -> 1 <= load (kc s).
  Proof. intros (rows & H & _). apply (sh_load _ _ _ H). Qed.
  Lemma frame_lens (s : SKL) : Frame s -> length (maxes (kc s)) = length (lists (kc s)) /\
    map (@length K) (keys s) = map (@length V) (lists (kc s)).
  Proof.
    intros (rows & H & _). destruct H as [H1 H2 H3 H4 _ _ _]. cbn in H1, H2, H3. split.
    - rewrite H1, map_length. rewrite <- (units_length (maxes (kc s))), H3, map_length. reflexivity.
    - rewrite H1. transitivity (map (@length unit) (map units (keys s))).
      + rewrite map_map. apply map_ext. intros a. symmetry. apply units_length.
      + rewrite H2, !map_map. apply map_ext_in. intros r Hr. rewrite Forall_forall in H4. apply (row_ok_len ukf r), H4, Hr.
  Qed.
  Lemma frame_nil_state (s : SKL) : Frame s -> contents (kc s) = [] ->
    exists ix off, s = mkskl (mkcore [] [] ix off 0 (load (kc s))) [] /\ IndexOK [] ix off.
  Proof.
    intros H E. destruct (shape_nil_state ukf _ H E) as (ix & off & E2 & HI).
    destruct s as [[ls ms ix0 off0 n ld] ks]. cbn in *. injection E2 as -> Hm -> -> -> Hk.
    destruct ms; [|discriminate]. destruct ks; [|discriminate]. eauto.
  Qed.
  Lemma frame_maxes_nil (s : SKL) : Frame s -> is_nil (maxes (kc s)) = true -> contents (kc s) = [].
  Proof.
    intros H E. apply is_nil_spec in E. destruct (frame_lens s H) as [H1 _]. rewrite E in H1. cbn in H1.
    unfold contents. destruct (lists (kc s)); [reflexivity|discriminate].
  Qed.
End Forget.

(** ** Growing and filling the frame *)
Section Grow.
  Context {V K : Type}.
  Notation SKL := (skl V K).

  Lemma mapR_ukf (l : list V) : mapR ukf l = Ok (units l).
  Proof. induction l as [|x l IH]; cbn; [reflexivity|]. rewrite IH. reflexivity. Qed.
  Lemma units_eq {A B} (a : list A) (b : list B) : length a = length b -> units a = units b.
  Proof. revert b. induction a as [|x a IH]; intros [|y b] H; cbn in *; try lia; [reflexivity|]. f_equal. apply IH. lia. Qed.
  Lemma units_one {A} (a : list A) x b y : units (a ++ x :: b) = units (a ++ y :: b).
  Proof. apply units_eq. rewrite !app_length. reflexivity. Qed.
  Lemma unit_row (r : row V unit) : length (r_k r) = length (r_l r) -> r_l r <> [] -> row_ok ukf r.
  Proof.
    destruct r as [l k m]. cbn. intros H Hn. split; cbn.
    - rewrite mapR_ukf. f_equal. transitivity (units k); [apply units_eq; congruence|].
      unfold units. rewrite <- (map_id k) at 2. apply map_ext. intros []. reflexivity.
    - destruct (getlast_ne k) as ([] & ->); [|destruct m; reflexivity]. intros ->. destruct l; [congruence|discriminate].
  Qed.

  (** A state whose parts match. *)
  Lemma frame_of (s : SKL) : 1 <= load (kc s) -> len (kc s) = length (contents (kc s)) ->
    length (maxes (kc s)) = length (lists (kc s)) -> map (@length K) (keys s) = map (@length V) (lists (kc s)) ->
    Forall (fun l => l <> []) (lists (kc s)) -> SizesOK (load (kc s)) (lists (kc s)) ->
    IndexOK (map (@length V) (lists (kc s))) (index (kc s)) (offset (kc s)) -> Frame s.
  Proof.
    intros H1 H2 H3 H4 H5 H6 H7. exists (map (fun l => mkrow l (units l) tt) (lists (kc s))). split; [|exact H2].
    destruct s as [[ls ms ix off n ld] ks]. cbn in *. constructor; cbn.
    - rewrite map_map. cbn. rewrite map_id. reflexivity.
    - rewrite map_map. cbn. revert ks H4. induction ls as [|l ls IH]; intros [|k ks] E; try discriminate; [reflexivity|].
      cbn in *. injection E as E1 E2. f_equal; [apply units_eq; exact E1|]. clear IH H5 H6 H7 H3 H2.
      revert ks E2. induction ls as [|l' ls IH]; intros [|k' ks] E; try discriminate; [reflexivity|].
      cbn in *. injection E as E3 E4. f_equal; [apply units_eq; exact E3|apply IH, E4].
    - rewrite map_map. apply units_eq. exact H3.
    - apply Forall_map. eapply Forall_impl; [|exact H5]. intros l Hl. apply unit_row; cbn; [apply map_length|exact Hl].
    - exact H1.
    - rewrite map_map. cbn. rewrite map_id. exact H6.
    - unfold lens_of. rewrite map_map. exact H7.
  Qed.

  Lemma frame_at (s : SKL) pos : Frame s -> pos < length (lists (kc s)) ->
    exists LA l LB KA k KB, lists (kc s) = LA ++ l :: LB /\ keys s = KA ++ k :: KB /\ length LA = pos /\ length KA = pos /\
      length k = length l /\ l <> [].
  Proof.
    intros H Hp. destruct (frame_lens s H) as [_ H2]. destruct (split_at _ _ Hp) as (LA & l & LB & E & Ea).
    assert (Hk : pos < length (keys s)) by (apply (f_equal (@length nat)) in H2; rewrite !map_length in H2; lia).
    destruct (split_at _ _ Hk) as (KA & k & KB & Ek & Eka). exists LA, l, LB, KA, k, KB.
    rewrite E, Ek, !map_app in H2. cbn [map] in H2.
    assert (E3 : length k = length l).
    { assert (E4 : nth pos (map (@length K) KA ++ length k :: map (@length K) KB) 0 = nth pos (map (@length V) LA ++ length l :: map (@length V) LB) 0)
        by (rewrite H2; reflexivity).
      rewrite <- Eka in E4 at 1. rewrite <- (map_length (@length K) KA) in E4 at 1. rewrite nth_mid_same in E4.
      rewrite <- Ea in E4. rewrite <- (map_length (@length V) LA) in E4. rewrite nth_mid_same in E4. exact E4. }
    repeat split; auto. intros ->. pose proof (co_ne _ (frame_core _ H)) as HF. rewrite E, Forall_app in HF. destruct HF as [_ HF].
    inversion HF; congruence.
  Qed.

  Lemma frame_grow (s : SKL) LA l LB KA k KB ms idx v kv : Frame s -> lists (kc s) = LA ++ l :: LB -> keys s = KA ++ k :: KB ->
    length LA = length KA -> length ms = length (maxes (kc s)) -> idx <= length l ->
    exists s2, skl_expand (length LA) (mkskl (mkcore (LA ++ insn l idx v :: LB) ms (index (kc s)) (offset (kc s)) (len (kc s)) (load (kc s)))
                        (KA ++ insn k idx kv :: KB)) = (Ok tt, s2) /\
      Frame (on_kc (fun c => set_len (len c + 1) c) s2) /\ load (kc s2) = load (kc s) /\
      exists l1 l2, contents (kc s) = l1 ++ l2 /\ contents (kc s2) = l1 ++ v :: l2.
  Proof.
    intros (rows & HS & Hlen) El Ek EL Em Hi. destruct HS as [Hls Hks Hms HR Hld [Hsz Hhf] HI].
    destruct s as [[ls ms0 ix off n ld] kss]. cbn [kc keys lists maxes index offset len load forget forgetc] in *. rewrite El in Hls. subst ls kss.
    destruct (map_eq_app _ _ _ _ (eq_sym Hls)) as (RA & RB' & -> & HRA & HRB').
    destruct RB' as [|r RB]; [discriminate|]. cbn in HRB'. injection HRB' as Hrl HRB.
    assert (HLA : length RA = length LA) by (rewrite <- HRA, map_length; reflexivity).
    rewrite map_app in Hks. cbn [map] in Hks. rewrite map_app in Hks. cbn [map] in Hks.
    assert (Hks' : map units KA = map r_k RA /\ units k = r_k r /\ map units KB = map r_k RB).
    { clear -Hks EL HLA. assert (E : length KA = length RA) by lia. clear EL HLA. revert RA Hks E.
      induction KA as [|a KA IH]; intros [|b RA] H E; cbn in *; try lia.
      - injection H as H1 H2. auto.
      - injection H as H1 H2. destruct (IH _ H2) as (G1 & G2 & G3); [lia|]. rewrite G1, H1. auto. }
    destruct Hks' as (HK1 & HK2 & HK3).
    assert (Hr : row_ok ukf r) by (rewrite Forall_app in HR; destruct HR as [_ HR]; inversion HR; assumption).
    pose proof (row_ok_len ukf r Hr) as Hrk. rewrite <- HK2, Hrl in Hrk. rewrite units_length in Hrk.
    set (r' := mkrow (insn l idx v) (units (insn k idx kv)) tt).
    assert (Hins : forall A (q : list A) i (y : A), i <= length q -> length (insn q i y) = S (length q)).
    { intros A q i y H. unfold insn. rewrite app_length. cbn [length]. rewrite firstn_length, skipn_length. lia. }
    assert (Hr' : row_ok ukf r').
    { apply unit_row; cbn [r' r_k r_l]; [rewrite units_length, !Hins by lia; lia|]. unfold insn. destruct (firstn idx l); discriminate. }
    pose proof (forget_expand (length LA) (mkskl (mkcore (LA ++ insn l idx v :: LB) ms ix off n ld) (KA ++ insn k idx kv :: KB))) as HF.
    destruct (expand_ok ukf (forget (mkskl (mkcore (LA ++ insn l idx v :: LB) ms ix off n ld) (KA ++ insn k idx kv :: KB))) RA r' RB)
      as (s2 & rows2 & He & Hs2 & Hc2 & Hn2 & Hl2); unfold forget, forgetc; cbn [kc keys lists maxes index offset len load].
    - rewrite map_app. cbn [map r' r_l]. congruence.
    - rewrite !map_app. cbn [map r' r_k]. congruence.
    - transitivity (units ms0); [apply units_eq; exact Em|]. rewrite Hms, !map_app. cbn. destruct (r_m r). reflexivity.
    - rewrite Forall_app in *. destruct HR as [HRA' HRB']. inversion HRB'; auto.
    - exact Hld.
    - cbn [r' r_l]. rewrite Hins by lia. rewrite Forall_forall in Hsz.
      assert (length (r_l r) <= 2 * ld); [|rewrite Hrl in *; lia]. apply Hsz. apply in_map. apply in_elt.
    - rewrite map_app, Forall_app in *. cbn [map] in Hsz. destruct Hsz as [H1 H2]. inversion H2; subst. auto.
    - rewrite map_app in *. cbn [map] in *. apply Forall_removelast_mid in Hhf as [HhA HhB].
      apply Forall_removelast_mid. split; [exact HhA|]. intros HB. destruct (HhB HB) as [H1 H2].
      split; [cbn [r' r_l]; rewrite Hins by lia; rewrite Hrl in H1; lia|exact H2].
    - destruct HI as [HI|HI]; [left; exact HI|]. right. exists (length l).
      split; [cbn [r' r_l]; apply Hins; lia|]. rewrite lens_app in HI. cbn in HI. rewrite Hrl in HI. exact HI.
    - rewrite HLA, HF in He. injection He as He1 He2.
      exists (snd (skl_expand (length LA) (mkskl (mkcore (LA ++ insn l idx v :: LB) ms ix off n ld) (KA ++ insn k idx kv :: KB)))).
      split; [rewrite <- He1; apply surjective_pairing|]. rewrite <- He2 in *. cbn [forget forgetc kc keys lists maxes index offset len load] in *.
      set (s3 := snd _) in *. unfold contents in *. cbn [forget forgetc kc keys lists maxes index offset len load] in *.
      split; [|split; [exact Hl2|]].
      + exists rows2. destruct Hs2. split; [constructor; assumption|]. cbn. unfold contents. cbn. rewrite Hc2, Hn2, Hlen, !concat_app, !app_length.
        cbn. rewrite !app_length, Hins by lia. lia.
      + exists (concat LA ++ firstn idx l), (skipn idx l ++ concat LB). rewrite Hc2, !concat_app. cbn [concat]. unfold insn.
        split; [rewrite <- (firstn_skipn idx l) at 1|]; rewrite <- !app_assoc; reflexivity.
  Qed.
End Grow.

(** ** Outcomes *)
Definition post {S A} (m : M S A) (s : S) (Q : A -> S -> Prop) (E : exn -> S -> Prop) : Prop :=
  match m s with (Ok a, s') => Q a s' | (Err e, s') => E e s' end.
Section Post.
  Context {S A B : Type}.
  Lemma post_bind (m : M S A) (k : A -> M S B) s (P : A -> S -> Prop) Q E : post m s P E ->
    (forall a s', P a s' -> post (k a) s' Q E) -> post (bind m k) s Q E.
  Proof. unfold post, bind. destruct (m s) as [[a|e] s']; intros H K; [apply K, H|exact H]. Qed.
  Lemma post_imp (m : M S A) s (Q Q' : A -> S -> Prop) (E E' : exn -> S -> Prop) : post m s Q E ->
    (forall a s', Q a s' -> Q' a s') -> (forall e s', E e s' -> E' e s') -> post m s Q' E'.
  Proof. unfold post. destruct (m s) as [[a|e] s']; auto. Qed.
End Post.

Section PostUser.
  Context {W S A B : Type}.
  (** A call of user code with a known outcome. *)
  Definition calls_to (m : M W A) (P : A -> Prop) (R : exn -> Prop) : Prop :=
    forall w, match fst (m w) with Ok a => P a | Err e => R e end.
  Lemma post_user (m : M W A) (k : A -> M (W * S) B) w c P (R : exn -> Prop) Q E : calls_to m P R ->
    (forall w' a, P a -> post (k a) (w', c) Q E) -> (forall w' e, R e -> E e (w', c)) -> post (bind (user m) k) (w, c) Q E.
  Proof.
    intros H HQ HE. specialize (H w). unfold post, bind, user, zoom. cbn [fst snd]. destruct (m w) as [[a|e] w']; cbn in *.
    - apply (HQ w' a H).
    - apply (HE w' e H).
  Qed.
  Lemma post_get (k : S -> M (W * S) B) w c Q E : post (k c) (w, c) Q E -> post (bind (own get) k) (w, c) Q E.
  Proof. intros H. exact H. Qed.
  Lemma post_lift (r : res A) a (k : A -> M (W * S) B) w c Q E : r = Ok a -> post (k a) (w, c) Q E ->
    post (bind (own (liftr r)) k) (w, c) Q E.
  Proof. intros -> H. exact H. Qed.
  Lemma post_lift_err (r : res A) (k : A -> M (W * S) B) w c (Q : B -> W * S -> Prop) (E : exn -> W * S -> Prop) e : r = Err e ->
    E e (w, c) -> post (bind (own (liftr r)) k) (w, c) Q E.
  Proof. intros -> H. exact H. Qed.
  Lemma post_modR (f : S -> res S) (k : M (W * S) B) w c c' Q E : f c = Ok c' -> post k (w, c') Q E ->
    post (bind (own (modifyR f)) (fun _ => k)) (w, c) Q E.
  Proof. intros Hf H. unfold post, bind, own, zoom, modifyR. cbn [fst snd]. rewrite Hf. exact H. Qed.
  Lemma post_mod (f : S -> S) (k : M (W * S) B) w c Q E : post k (w, f c) Q E ->
    post (bind (own (modify f)) (fun _ => k)) (w, c) Q E.
  Proof. intros H. exact H. Qed.
End PostUser.

Section EBisect.
  Context {W A : Type}.
  Variable lt : A -> A -> M W bool.
  Variable R : exn -> Prop.
  Hypothesis HR : forall x y e, may_raise (lt x y) e -> R e.
  Lemma e_right_loop a x : forall fuel lo hi, lo <= hi -> hi <= length a -> hi - lo < fuel ->
    calls_to (e_bisect_right_loop lt fuel a x lo hi) (fun i => i <= length a) R.
  Proof.
    induction fuel as [|f IH]; intros lo hi H1 H2 H3 w; [lia|]. cbn [e_bisect_right_loop].
    destruct (Nat.ltb_spec lo hi) as [Hl|Hl]; [|cbn; lia].
    assert (Hm : lo <= (lo + hi) / 2 < hi).
    { split; [apply Nat.div_le_lower_bound; lia|apply Nat.div_lt_upper_bound; lia]. }
    destruct (getn_lt a ((lo + hi) / 2)) as (y & ->); [lia|]. unfold bind, liftr.
    destruct (lt x y w) as [[b|e] w'] eqn:El; [|cbn; apply (HR x y); exists w, w'; exact El].
    destruct b; apply IH; lia.
  Qed.
  Lemma e_left_loop a x : forall fuel lo hi, lo <= hi -> hi <= length a -> hi - lo < fuel ->
    calls_to (e_bisect_left_loop lt fuel a x lo hi) (fun i => i <= length a) R.
  Proof.
    induction fuel as [|f IH]; intros lo hi H1 H2 H3 w; [lia|]. cbn [e_bisect_left_loop].
    destruct (Nat.ltb_spec lo hi) as [Hl|Hl]; [|cbn; lia].
    assert (Hm : lo <= (lo + hi) / 2 < hi).
    { split; [apply Nat.div_le_lower_bound; lia|apply Nat.div_lt_upper_bound; lia]. }
    destruct (getn_lt a ((lo + hi) / 2)) as (y & ->); [lia|]. unfold bind, liftr.
    destruct (lt y x w) as [[b|e] w'] eqn:El; [|cbn; apply (HR y x); exists w, w'; exact El].
    destruct b; apply IH; lia.
  Qed.
  (** A search in a list. *)
  Definition searches (bis : list A -> A -> M W nat) : Prop := forall a x, calls_to (bis a x) (fun i => i <= length a) R.
  Lemma e_right_ok : searches (e_bisect_right lt).
  Proof. intros a x. apply e_right_loop; lia. Qed.
  Lemma e_left_ok : searches (e_bisect_left lt).
  Proof. intros a x. apply e_left_loop; lia. Qed.
End EBisect.

Section Calls.
  Context {W : Type}.
  Lemma calls_bind {A B} (m : M W A) (k : A -> M W B) P Q R : calls_to m P R -> (forall a, P a -> calls_to (k a) Q R) ->
    calls_to (bind m k) Q R.
  Proof.
    intros H K w. specialize (H w). unfold bind. destruct (m w) as [[a|e] w']; cbn in *; [apply K, H|exact H].
  Qed.
  Lemma calls_one {A} (m : M W A) (R : exn -> Prop) : (forall e, may_raise m e -> R e) -> calls_to m (fun _ => True) R.
  Proof. intros H w. destruct (m w) as [[a|e] w'] eqn:E; cbn; [exact I|]. apply H. exists w, w'. exact E. Qed.
  Lemma calls_ret {A} (a : A) (P : A -> Prop) R : P a -> @calls_to W A (ret a) P R.
  Proof. intros H w. exact H. Qed.
  Lemma calls_mapM {A B} (f : A -> M W B) (R : exn -> Prop) l : (forall x e, may_raise (f x) e -> R e) ->
    calls_to (mapM f l) (fun r => length r = length l) R.
  Proof.
    intros H. induction l as [|x l IH]; cbn [mapM]; [apply calls_ret; reflexivity|].
    apply (calls_bind _ _ (fun _ => True)); [apply calls_one; intros e; apply H|]. intros y _.
    apply (calls_bind _ _ _ _ _ IH). intros ys E. apply calls_ret. cbn. congruence.
  Qed.
  Lemma calls_sort {A} (srt : sorting W) (lt : A -> A -> M W bool) (R : exn -> Prop) l : permutes srt ->
    (forall x y e, may_raise (lt x y) e -> R e) -> calls_to (srt A lt l) (fun l' => Permutation l' l) R.
  Proof.
    intros H HR w. specialize (H A lt l w). destruct (fst (srt A lt l w)) as [l'|e]; [exact H|]. destruct H as (x & y & H). eauto.
  Qed.
  Lemma calls_sort_key {V K} (srt : sorting W) (klt : K -> K -> M W bool) (kf : V -> M W K) (R : exn -> Prop) l : permutes srt ->
    (forall x y e, may_raise (klt x y) e -> R e) -> (forall x e, may_raise (kf x) e -> R e) ->
    calls_to (e_sorted_key srt klt kf l) (fun l' => Permutation l' l) R.
  Proof.
    intros H H1 H2. unfold e_sorted_key. apply (calls_bind _ _ _ _ _ (calls_mapM kf R l H2)). intros ks Hk.
    eapply calls_bind; [apply (calls_sort srt _ R (combine ks l) H); intros p q e; apply H1|]. intros ps Hp.
    apply calls_ret. rewrite Hp. clear -Hk. revert l Hk. induction ks as [|k ks IH]; intros [|x l] Hk; try discriminate; [reflexivity|].
    cbn. rewrite IH by (cbn in Hk; lia). reflexivity.
  Qed.
End Calls.

(** ** The inherited methods *)
Section EVt.
  Context {W V K : Type}.
  Variable srt : sorting W.
  Variables klt keq : K -> K -> M W bool.
  Variable kf : V -> M W K.
  Notation SKL := (skl V K).
  Notation WS := (W * SKL)%type.
  Notation T := (ek_vt srt klt kf).
  Definition FrameW (s : WS) : Prop := Frame (snd s).

  Lemma frame_delete (s : SKL) a x b p i : Frame s -> contents (kc s) = a ++ x :: b -> Locate (lists (kc s)) p i (length a) ->
    exists s', skl_delete p i s = (Ok tt, s') /\ Frame s' /\ contents (kc s') = a ++ b /\ load (kc s') = load (kc s).
  Proof.
    intros H E L. destruct (vo_delete _ _ (skl_vt_ok (fun _ _ => Ok true) ukf) (forget s) a x b p i H E L) as (s' & H1 & H2 & H3 & H4).
    cbn [skl_vt vt_delete] in H1. rewrite (forget_delete p i s) in H1. injection H1 as H1 H1'.
    exists (snd (skl_delete p i s)). rewrite <- H1' in *. rewrite <- H1. split; [apply surjective_pairing|]. auto.
  Qed.

  Lemma ek_vt_ok : VtOK T FrameW.
  Proof.
    constructor; unfold vcont, ek_vt, FrameW; cbn [vt_get vt_put vt_clear vt_delete fst snd].
    - intros s. apply frame_core.
    - reflexivity.
    - intros [w [c ks]]. reflexivity.
    - intros c s. apply frame_touch.
    - intros [w s] H. eexists. split; [reflexivity|]. cbn [snd]. split; [apply frame_empty, (frame_load s H)|]. split; reflexivity.
    - intros ld [w s] H E Hld. exact (vo_load _ _ (skl_vt_ok (fun _ _ => Ok true) ukf) ld (forget s) H E Hld).
    - intros [w s] a x b p i H E L. destruct (frame_delete s a x b p i H E L) as (s' & H1 & H2 & H3 & H4).
      exists (w, s'). unfold own, zoom. cbn [fst snd]. rewrite H1. auto.
  Qed.
End EVt.

Section LVt.
  Context {W V : Type}.
  Variable srt : sorting W.
  Variable lt : V -> V -> M W bool.
  Notation SL := (core V V).
  Definition FrameL (c : SL) : Prop := Frame (embed c).
  Definition FrameLW (s : W * SL) : Prop := FrameL (snd s).
  Lemma framel_core (c : SL) : FrameL c -> CoreOK c.
  Proof. apply (frame_core (embed c)). Qed.
  Lemma framel_touch (c c' : SL) : FrameL c -> touch c c' -> FrameL c'.
  Proof.
    intros H T. assert (E : embed c' = set_kc c' (embed c)).
    { unfold embed, set_kc. cbn [keys]. rewrite (touch_lists _ _ T). reflexivity. }
    unfold FrameL. rewrite E. apply frame_touch; assumption.
  Qed.
  Lemma framel_delete (c : SL) a x b p i : FrameL c -> contents c = a ++ x :: b -> Locate (lists c) p i (length a) ->
    exists c', sl_delete p i c = (Ok tt, c') /\ FrameL c' /\ contents c' = a ++ b /\ load c' = load c.
  Proof.
    intros H E L. destruct (frame_delete (embed c) a x b p i H E L) as (s' & H1 & H2 & H3 & H4).
    rewrite (ListSim.sim_delete p i c) in H1. injection H1 as H1 <-. exists (snd (sl_delete p i c)).
    rewrite <- H1. split; [apply surjective_pairing|]. auto.
  Qed.
  Lemma e_vt_ok : VtOK (e_vt srt lt) FrameLW.
  Proof.
    constructor; unfold vcont, e_vt, FrameLW; cbn [vt_get vt_put vt_clear vt_delete fst snd].
    - intros s. apply framel_core.
    - reflexivity.
    - intros [w c]. reflexivity.
    - intros c s. apply framel_touch.
    - intros [w s] H. eexists. split; [reflexivity|]. cbn [snd]. split; [apply (frame_empty (K := V)), (frame_load _ H)|]. split; reflexivity.
    - intros ld [w s] H E Hld. exact (vo_load _ _ (skl_vt_ok (fun _ _ => Ok true) ukf) ld (forget (embed s)) H E Hld).
    - intros [w s] a x b p i H E L. destruct (framel_delete s a x b p i H E L) as (s' & H1 & H2 & H3 & H4).
      exists (w, s'). unfold own, zoom. cbn [fst snd]. rewrite H1. auto.
  Qed.
End LVt.

(** ** Inherited methods that rebuild the container, up to their call of [_update] *)
Section Via.
  Context {S V K : Type}.
  Variable T : vtable S V K.
  Variable Inv : S -> Prop.
  Hypothesis HT : VtOK T Inv.

  Lemma delitem_slice_via s sl : Inv s ->
    (exists s' l', delitem_slice T sl s = (Ok tt, s') /\ sp_del_slice sl (vcont T s) = Ok l' /\ Inv s' /\ vcont T s' = l' /\
       load (vt_get T s') = load (vt_get T s)) \/
    (sp_del_slice sl (vcont T s) = Err ValueError /\ s_step sl = Some 0%Z /\ delitem_slice T sl s = (Err ValueError, s)) \/
    (exists s3 l', sp_del_slice sl (vcont T s) = Ok l' /\ Inv s3 /\ vcont T s3 = [] /\ load (vt_get T s3) = load (vt_get T s) /\
       delitem_slice T sl s = vt_update T l' s3).
  Proof.
    intros HI. pose proof (vo_core _ _ HT _ HI) as HC. pose proof (vlen T Inv HT _ HI) as Hl.
    unfold delitem_slice, sp_del_slice. rewrite (bind_ok _ _ _ _ _ (oncore_get T Inv HT s)). rewrite <- Hl.
    destruct (slice_indices sl (len (vt_get T s))) as [[[start stop] step]|e] eqn:Es;
      [|right; left; apply slice_indices_Err in Es as [-> ?]; split; [reflexivity|split; [assumption|reflexivity]]].
    rewrite (bind_lift _ _ _ _ eq_refl). cbv zeta. cbn [rbind].
    destruct (slice_indices_Ok _ _ _ _ _ Es) as (Hs0 & Hpos & Hneg).
    (* the deletion loop *)
    assert (Loop0 : exists s' l',
      forM (delitem_int T) (if (0 <? step)%Z then rev (rangez start stop step) else rangez start stop step) s = (Ok tt, s') /\
      Ok (drop_positions (rangez start stop step) 0 (vcont T s)) = Ok l' /\
      Inv s' /\ vcont T s' = l' /\ load (vt_get T s') = load (vt_get T s)).
    { assert (HB : Forall (fun i => 0 <= i < Z.of_nat (length (vcont T s)))%Z (rangez start stop step)).
      { apply Forall_forall. intros i Hi. destruct (rangez_bound _ _ _ _ Hs0 Hi) as [B1 B2].
        rewrite <- Hl. destruct (Z.lt_trichotomy step 0) as [Hn|[Hn|Hn]]; [|lia|].
        - specialize (B2 Hn). specialize (Hneg Hn). lia.
        - specialize (B1 Hn). specialize (Hpos Hn). lia. }
      destruct (Z.ltb_spec 0 step) as [Hp|Hn].
      - destruct (del_loop T Inv HT (rev (rangez start stop step)) (rangez_asc _ _ _ Hp) s HI) as (s' & H1 & H2 & H3 & H4).
        + apply Forall_rev. exact HB.
        + eexists s', _. split; [exact H1|]. split; [reflexivity|]. split; [exact H2|].
          split; [|exact H4]. rewrite H3. apply drop_ext. intros i _. apply existsb_eqb_perm.
          intros x. symmetry. apply in_rev.
      - destruct (del_loop T Inv HT (rangez start stop step) (rangez_desc start stop step ltac:(lia)) s HI HB) as (s' & H1 & H2 & H3 & H4).
        eexists s', _. split; [exact H1|]. split; [reflexivity|]. auto. }
    assert (Loop : exists s' l',
      forM (delitem_int T) (if (0 <? step)%Z then rev (rangez start stop step) else rangez start stop step) s = (Ok tt, s') /\
      Ok (drop_positions (rangez start stop step) 0 (vcont T s)) = Ok l' /\ Inv s' /\ vcont T s' = l' /\
      load (vt_get T s') = load (vt_get T s)) by exact Loop0.
    destruct ((step =? 1) && (start <? stop))%Z eqn:E1; [|left; exact Loop].
    apply andb_true_iff in E1 as [Ea Eb]. apply Z.eqb_eq in Ea. apply Z.ltb_lt in Eb. subst step.
    specialize (Hpos ltac:(lia)).
    destruct ((start =? 0) && (stop =? Z.of_nat (len (vt_get T s))))%Z eqn:E2.
    { apply andb_true_iff in E2 as [Ec Ed]. apply Z.eqb_eq in Ec, Ed.
      destruct (vo_clear _ _ HT s HI) as (s' & H1 & H2 & H3 & H4).
      left. exists s', []. split; [exact H1|]. split; [|auto]. f_equal. rewrite drop_range by lia. subst. cbn [Z.to_nat firstn app].
      rewrite Nat2Z.id, Hl, skipn_all. reflexivity. }
    destruct (Z.leb_spec (Z.of_nat (len (vt_get T s))) (8 * (stop - start))) as [Hbig|_]; [|left; exact Loop].
    destruct (getitem_slice_ok _ (mkslice None (Some start) None) HC) as (c1 & G1 & T1).
    destruct (oncore_ok T Inv HT _ s _ _ HI G1 T1) as (s1 & Hs1 & HI1 & Hc1 & Hls1 & Hld1).
    unfold sp_slice in Hs1. fold (vcont T s) in Hs1. rewrite <- Hl in Hs1.
    rewrite slice_indices_to in Hs1 by lia. cbn [rbind] in Hs1.
    rewrite mapR_getz_rangez in Hs1 by lia. cbn [Z.to_nat] in Hs1.
    rewrite (bind_ok _ _ _ _ _ Hs1).
    assert (V1 : slicen (vcont T s) 0 (Z.to_nat start) = firstn (Z.to_nat start) (vcont T s)).
    { unfold slicen. cbn. rewrite Nat.sub_0_r. reflexivity. }
    rewrite V1.
    assert (More : exists s2, (if (stop <? Z.of_nat (len (vt_get T s)))%Z
                 then more <- oncore T (getitem_slice (mkslice (Some stop) None None));;
                      ret (firstn (Z.to_nat start) (vcont T s) ++ more)
                 else ret (firstn (Z.to_nat start) (vcont T s))) s1 =
               (Ok (firstn (Z.to_nat start) (vcont T s) ++ skipn (Z.to_nat stop) (vcont T s)), s2) /\
               Inv s2 /\ load (vt_get T s2) = load (vt_get T s)).
    { destruct (Z.ltb_spec stop (Z.of_nat (len (vt_get T s)))) as [Hlt|Hge].
      - destruct (getitem_slice_ok _ (mkslice (Some stop) None None) (vo_core _ _ HT _ HI1)) as (c2 & G2 & T2).
        destruct (oncore_ok T Inv HT _ s1 _ _ HI1 G2 T2) as (s2 & Hs2 & HI2 & Hc2 & Hls2 & Hld2).
        unfold sp_slice in Hs2. fold (vcont T s1) in Hs2. rewrite Hc1, <- Hl in Hs2.
        rewrite slice_indices_from in Hs2 by lia. cbn [rbind] in Hs2.
        rewrite mapR_getz_rangez in Hs2 by lia.
        rewrite (bind_ok _ _ _ _ _ Hs2). exists s2. split; [|split; [exact HI2|congruence]].
        unfold ret. f_equal. f_equal. f_equal. unfold slicen. apply firstn_all2.
        rewrite skipn_length. lia.
      - exists s1. rewrite skipn_all2 by lia. rewrite app_nil_r. auto. }
    destruct More as (s2 & Hm & HI2 & Hld2). rewrite (bind_ok _ _ _ _ _ Hm).
    destruct (vo_clear _ _ HT s2 HI2) as (s3 & H1 & H2 & H3 & H4). rewrite (bind_ok _ _ _ _ _ H1).
    right. right. eexists s3, _. split; [rewrite drop_range by lia; reflexivity|]. split; [exact H2|]. split; [exact H3|].
    split; [congruence|reflexivity].
  Qed.
  Lemma reset_via ld s : Inv s -> 1 <= ld ->
    exists s3, reset T ld s = vt_update T (vcont T s) s3 /\ Inv s3 /\ vcont T s3 = [] /\ load (vt_get T s3) = ld.
  Proof.
    intros HI Hld. unfold reset. rewrite (bind_ok _ _ _ _ _ (oncore_get T Inv HT s)). cbv zeta.
    destruct (vo_clear _ _ HT s HI) as (s1 & H1 & H2 & H3 & H4). rewrite (bind_ok _ _ _ _ _ H1).
    unfold bind at 1, oncore, zoom, modify.
    exists (vt_put T (set_load ld (vt_get T s1)) s1). split; [reflexivity|].
    split; [apply (vo_load _ _ HT); assumption|]. unfold vcont. rewrite (vo_get_put _ _ HT). split; [exact H3|reflexivity].
  Qed.
  Lemma imul_via n s : Inv s ->
    exists s3, imul T n s = vt_update T (sp_mul n (vcont T s)) s3 /\ Inv s3 /\ vcont T s3 = [] /\ load (vt_get T s3) = load (vt_get T s).
  Proof.
    intros HI. unfold imul. rewrite (bind_ok _ _ _ _ _ (oncore_get T Inv HT s)). cbv zeta.
    destruct (vo_clear _ _ HT s HI) as (s1 & H1 & H2 & H3 & H4). rewrite (bind_ok _ _ _ _ _ H1).
    exists s1. auto.
  Qed.
End Via.

(** ** SortedKeyList *)
Section KeyEff.
  Context {W V K : Type}.
  Variable srt : sorting W.
  Variables vlt eq : V -> V -> M W bool.
  Variables klt keq : K -> K -> M W bool.
  Variable kf : V -> M W K.
  Hypothesis Hsrt : permutes srt.
  Notation SKL := (skl V K).
  Notation WS := (W * SKL)%type.
  Notation T := (ek_vt srt klt kf).
  Notation R := (ek_raises vlt eq klt keq kf).

  Lemma R_klt x y e : may_raise (klt x y) e -> R e.
  Proof. intros H. right. left. left. eauto. Qed.
  Lemma R_keq x y e : may_raise (keq x y) e -> R e.
  Proof. intros H. right. left. right. eauto. Qed.
  Lemma R_kf x e : may_raise (kf x) e -> R e.
  Proof. intros H. right. right. eauto. Qed.
  Lemma R_eq x y e : may_raise (eq x y) e -> R e.
  Proof. intros H. left. right. eauto. Qed.
  Lemma R_vlt x y e : may_raise (vlt x y) e -> R e.
  Proof. intros H. left. left. eauto. Qed.
  Lemma k_right : searches R (e_bisect_right klt).
  Proof. apply e_right_ok. apply R_klt. Qed.
  Lemma k_left : searches R (e_bisect_left klt).
  Proof. apply e_left_ok. apply R_klt. Qed.
  Lemma kf_calls v : calls_to (kf v) (fun _ => True) R.
  Proof. apply calls_one. apply R_kf. Qed.

  Lemma frame_maxes (s : SKL) pos : Frame s -> pos <= length (maxes (kc s)) -> pos <> length (maxes (kc s)) -> pos < length (lists (kc s)).
  Proof. intros H H1 H2. destruct (frame_lens s H) as [H3 _]. lia. Qed.
  Lemma frame_last (s : SKL) : Frame s -> is_nil (maxes (kc s)) = false -> length (maxes (kc s)) - 1 < length (lists (kc s)).
  Proof. intros H H1. destruct (frame_lens s H) as [H3 _]. destruct (maxes (kc s)); [discriminate|]. cbn in *. lia. Qed.

  Lemma k_add_post v w (s : SKL) : Frame s ->
    post (ek_add klt kf v) (w, s)
      (fun _ s' => Frame (snd s') /\ load (kc (snd s')) = load (kc s) /\
         exists l1 l2, contents (kc s) = l1 ++ l2 /\ contents (kc (snd s')) = l1 ++ v :: l2)
      (fun e s' => snd s' = s /\ R e).
  Proof.
    intros HF. unfold ek_add. eapply post_user; [apply kf_calls| |]; [|intros w' e He; split; [reflexivity|exact He]].
    intros w1 k _. apply post_get.
    destruct (is_nil (maxes (kc s))) eqn:Hnil.
    { pose proof (frame_maxes_nil s HF Hnil) as Hc. destruct (frame_nil_state s HF Hc) as (ix & off & -> & HI).
      unfold post, bind, own, zoom, modify. cbn [fst snd kc lists maxes keys app].
      split; [|split; [reflexivity|exists [], []; auto]].
      pose proof (frame_load _ HF) as Hld. cbn in Hld. apply frame_of; unfold contents; cbn.
      - exact Hld.
      - reflexivity.
      - reflexivity.
      - reflexivity.
      - repeat constructor. discriminate.
      - split; cbn; [constructor; [cbn; lia|constructor]|constructor].
      - destruct HI as [HI|HI]; [left; exact HI|]. destruct HI as (D & _ & _ & _ & H & _). cbn in H. lia. }
    assert (Fin : forall (w : W) pos idx ms, pos < length (lists (kc s)) -> length ms = length (maxes (kc s)) ->
              (forall l, getn (lists (kc s)) pos = Ok l -> idx <= length l) ->
              forall fl fk, (forall l ks, getn (lists (kc s)) pos = Ok l -> getn (keys s) pos = Ok ks -> fl l = insn l idx v /\ fk ks = insn ks idx k) ->
              exists ls' ks', updn (lists (kc s)) pos (fun l => Ok (fl l)) = Ok ls' /\ updn (keys s) pos (fun l => Ok (fk l)) = Ok ks' /\
              post ((own (skl_expand pos)) ;;; own (modify (on_kc (fun c => set_len (len c + 1) c))))
                (w, mkskl (mkcore ls' ms (index (kc s)) (offset (kc s)) (len (kc s)) (load (kc s))) ks')
                (fun _ s' => Frame (snd s') /\ load (kc (snd s')) = load (kc s) /\
                   exists l1 l2, contents (kc s) = l1 ++ l2 /\ contents (kc (snd s')) = l1 ++ v :: l2)
                (fun e s' => snd s' = s /\ R e)).
    { intros w2 pos idx ms Hp Hms Hi fl fk Hfk. destruct (frame_at s pos HF Hp) as (LA & l & LB & KA & kk & KB & E1 & E2 & E3 & E4 & E5 & E6).
      assert (G1 : getn (lists (kc s)) pos = Ok l) by (rewrite E1; apply getn_app'; auto).
      assert (G2 : getn (keys s) pos = Ok kk) by (rewrite E2; apply getn_app'; auto).
      destruct (Hfk l kk G1 G2) as [F1 F2].
      destruct (frame_grow s LA l LB KA kk KB ms idx v k HF E1 E2 ltac:(congruence) Hms (Hi l G1)) as (s2 & H1 & H2 & H3 & H4).
      exists (LA ++ insn l idx v :: LB), (KA ++ insn kk idx k :: KB).
      split; [rewrite E1, <- E3, updn_app; cbn [rbind]; rewrite F1; reflexivity|].
      split; [rewrite E2, <- E4, updn_app; cbn [rbind]; rewrite F2; reflexivity|].
      rewrite E3 in H1. unfold post, bind, own, zoom, modify. cbn [fst snd]. rewrite H1. cbn [fst snd].
      split; [exact H2|]. split; [exact H3|exact H4]. }
    unfold post, bind at 1 2, user, zoom. cbn [fst snd].
    pose proof (k_right (maxes (kc s)) k w1) as Hb. destruct (e_bisect_right klt (maxes (kc s)) k w1) as [[pos|e] w2]; cbn [fst] in Hb;
      [|split; [reflexivity|exact Hb]].
    destruct (Nat.eqb_spec pos (length (maxes (kc s)))) as [Hp|Hp].
    - cbv zeta. destruct (frame_lens s HF) as [Hml _].
      assert (Hp1 : pos - 1 < length (lists (kc s))) by (rewrite Hp; apply frame_last; assumption).
      destruct (getn_lt (lists (kc s)) (pos - 1) Hp1) as (l & Gl).
      destruct (split_at (maxes (kc s)) (pos - 1)) as (MA & m & MB & Em & Ep); [lia|].
      assert (Hset : setn (maxes (kc s)) (pos - 1) k = Ok (MA ++ k :: MB)) by (rewrite Em, <- Ep; apply setn_app).
      destruct (Fin w2 (pos - 1) (length l) (MA ++ k :: MB) Hp1) with (fl := fun l => l ++ [v]) (fk := fun l : list K => l ++ [k])
        as (ls' & ks' & U1 & U2 & P).
      + rewrite Em, !app_length. reflexivity.
      + intros l' Gl'. assert (l' = l) by congruence. subst. lia.
      + intros l' ks Gl' Gk. assert (l' = l) by congruence. subst l'.
        destruct (frame_at s (pos - 1) HF Hp1) as (LA & l0 & LB & KA & kk & KB & E1 & E2 & E3 & E4 & E5 & E6).
        assert (l0 = l) by (rewrite E1, (getn_app' LA l0 LB) in Gl by auto; congruence).
        assert (kk = ks) by (rewrite E2, (getn_app' KA kk KB) in Gk by auto; congruence). subst.
        unfold insn. rewrite <- E5 at 3 4. rewrite !firstn_all, !skipn_all. auto.
      + unfold bind, own, zoom, modifyR, on_kc, set_kc, set_keys, set_lists, set_maxes. cbn [fst snd kc keys lists maxes index offset len load].
        rewrite U1. cbn [rbind fst snd kc keys lists maxes index offset len load]. rewrite U2.
        cbn [rbind fst snd kc keys lists maxes index offset len load]. rewrite Hset.
        cbn [rbind fst snd kc keys lists maxes index offset len load]. exact P.
    - assert (Hp1 : pos < length (lists (kc s))) by (apply frame_maxes; auto).
      destruct (frame_at s pos HF Hp1) as (LA & l0 & LB & KA & kk & KB & E1 & E2 & E3 & E4 & E5 & E6).
      assert (Gk : getn (keys s) pos = Ok kk) by (rewrite E2; apply getn_app'; auto).
      unfold bind at 1, own at 1, zoom, liftr. cbn [fst snd]. rewrite Gk. cbn [fst snd].
      unfold bind at 1, user, zoom. cbn [fst snd].
      pose proof (k_right kk k w2) as Hb2. destruct (e_bisect_right klt kk k w2) as [[idx|e] w3]; cbn [fst] in Hb2;
        [|split; [reflexivity|exact Hb2]].
      destruct (Fin w3 pos idx (maxes (kc s)) Hp1 eq_refl) with (fl := fun l => insn l idx v) (fk := fun l : list K => insn l idx k)
        as (ls' & ks' & U1 & U2 & P); [|auto|].
      + intros l Gl. assert (l = l0) by (rewrite E1, (getn_app' LA l0 LB) in Gl by auto; congruence). subst. lia.
      + unfold bind, own, zoom, modifyR, on_kc, set_kc, set_keys, set_lists, set_maxes. cbn [fst snd kc keys lists maxes index offset len load].
        rewrite U1. cbn [rbind fst snd kc keys lists maxes index offset len load]. rewrite U2.
        cbn [rbind fst snd kc keys lists maxes index offset len load]. exact P.
  Qed.

  Lemma k_adds_post vs : forall w (s : SKL), Frame s ->
    post (forM (ek_add klt kf) vs) (w, s)
      (fun _ s' => Frame (snd s') /\ load (kc (snd s')) = load (kc s) /\ Permutation (contents (kc (snd s'))) (contents (kc s) ++ vs))
      (fun e s' => R e /\ load (kc (snd s')) = load (kc s) /\
         exists us ws, Permutation (contents (kc (snd s'))) (contents (kc s) ++ us) /\ vs = us ++ ws).
  Proof.
    induction vs as [|v vs IH]; intros w s HF; cbn [forM].
    - unfold post, ret. cbn. rewrite app_nil_r. auto.
    - eapply post_bind.
      + eapply post_imp; [apply (k_add_post v w s HF)|intros a s' H; exact H|].
        intros e s' [-> H]. split; [exact H|]. split; [reflexivity|]. exists [], (v :: vs). rewrite app_nil_r. auto.
      + intros _ [w' s'] (H1 & H2 & l1 & l2 & H3 & H4). cbn [snd] in *.
        assert (HP : Permutation (contents (kc s')) (contents (kc s) ++ [v])).
        { rewrite H3, H4, <- app_assoc. apply Permutation_app_head. apply Permutation_cons_append. }
        eapply post_imp; [apply (IH w' s' H1)| |].
        * intros _ s2 (G1 & G2 & G3). split; [exact G1|]. split; [congruence|]. rewrite G3, HP, <- app_assoc. reflexivity.
        * intros e s2 (G1 & G2 & us & ws & G3 & ->). split; [exact G1|]. split; [congruence|]. exists (v :: us), ws. split; [|reflexivity].
          rewrite G3, HP, <- app_assoc. reflexivity.
  Qed.

  Lemma k_keys_loop ls : forall w (s : SKL),
    post (forM (fun l => ks <- user (mapM kf l) ;; own (modify (fun s => set_keys (keys s ++ [ks]) s))) ls) (w, s)
      (fun _ s' => kc (snd s') = kc s /\ exists ks, keys (snd s') = keys s ++ ks /\ map (@length K) ks = map (@length V) ls)
      (fun e s' => R e /\ kc (snd s') = kc s).
  Proof.
    induction ls as [|l ls IH]; intros w s; cbn [forM].
    - split; [reflexivity|]. exists []. rewrite app_nil_r. auto.
    - eapply post_bind.
      + eapply post_user; [apply (calls_mapM kf R l); apply R_kf| |].
        * intros w' ks Hks. instantiate (1 := fun _ s' => kc (snd s') = kc s /\ exists ks, keys (snd s') = keys s ++ [ks] /\ length ks = length l).
          split; [reflexivity|]. exists ks. auto.
        * intros w' e He. split; [exact He|reflexivity].
      + intros _ [w' s'] (H1 & ks & H2 & H3). cbn [snd] in *. eapply post_imp; [apply (IH w' s')| |].
        * intros _ s2 (G1 & ks2 & G2 & G3). split; [congruence|]. exists (ks :: ks2). rewrite G2, H2, <- app_assoc. cbn. split; [reflexivity|]. congruence.
        * intros e s2 (G1 & G2). split; [exact G1|congruence].
  Qed.

  Lemma k_fill_post values w ix off n ld : 1 <= ld ->
    post (ek_fill kf values) (w, mkskl (mkcore [] [] ix off n ld) [])
      (fun _ s' => Frame (snd s') /\ load (kc (snd s')) = ld /\ contents (kc (snd s')) = values)
      (fun e s' => R e /\ load (kc (snd s')) = ld /\ contents (kc (snd s')) = values).
  Proof.
    intros Hld. unfold ek_fill. destruct (chunks_ok ld values Hld) as (cs & Hcs & Hcc & HF & HR).
    eapply post_modR; [cbn [kc load]; rewrite Hcs; reflexivity|]. apply post_get. ev. cbn [app].
    eapply post_bind.
    - eapply post_imp; [apply (k_keys_loop cs w)|intros a s' H; exact H|].
      intros e s' (H1 & H2). rewrite H2. split; [exact H1|]. split; [reflexivity|exact Hcc].
    - intros _ [w' [c' ks']] (H1 & ks & H2 & H3). cbn [snd kc keys app] in *. subst c' ks'.
      assert (Hms : exists ms, mapR getlast ks = Ok ms /\ length ms = length ks).
      { assert (Hne : Forall (fun k => k <> []) ks).
        { clear -H3 HF. revert cs H3 HF. induction ks as [|k ks IH]; intros [|c cs] H HF; try discriminate; constructor.
          - cbn in H. injection H as H _. inversion HF as [|? ? [Hc _] _]; subst. intros ->. destruct c; [congruence|discriminate].
          - cbn in H. injection H as _ H. inversion HF; subst. eapply IH; eauto. }
        clear -Hne. induction Hne as [|k ks Hk _ (ms & E & El)]; [exists []; auto|].
        destruct (getlast_ne k Hk) as (x & Ex). exists (x :: ms). cbn. rewrite Ex, E. cbn. auto. }
      destruct Hms as (ms & Ems & Elm).
      unfold post, own, zoom, modifyR. cbn [fst snd kc keys]. rewrite Ems. cbn [rbind]. ev. cbn [fst snd app kc].
      split; [|split; [reflexivity|exact Hcc]].
      apply frame_of; unfold contents; cbn.
      + exact Hld.
      + congruence.
      + rewrite Elm. apply (f_equal (@length nat)) in H3. rewrite !map_length in H3. exact H3.
      + exact H3.
      + eapply Forall_impl; [|exact HF]. intros c [H _]. exact H.
      + split.
        * eapply Forall_impl; [|exact HF]. intros c [_ H]. lia.
        * eapply Forall_impl; [|exact HR]. intros c H. cbv beta in H. rewrite H. apply Nat.div_le_upper_bound; lia.
      + left. reflexivity.
  Qed.

  Lemma k_update_post it w (s : SKL) : Frame s ->
    post (ek_update srt klt kf it) (w, s)
      (fun _ s' => Frame (snd s') /\ load (kc (snd s')) = load (kc s) /\ Permutation (contents (kc (snd s'))) (contents (kc s) ++ it))
      (fun e s' => R e /\ load (kc (snd s')) = load (kc s) /\
         (contents (kc s) = [] -> contents (kc (snd s')) = [] \/ Permutation (contents (kc (snd s'))) it) /\
         exists vs ws, Permutation (contents (kc (snd s'))) (contents (kc s) ++ vs) /\ Permutation (vs ++ ws) it).
  Proof.
    intros HF. assert (Hld := frame_load s HF). unfold ek_update.
    eapply post_user; [apply (calls_sort_key srt klt kf R it Hsrt R_klt R_kf)| |].
    2:{ intros w' e He. split; [exact He|]. split; [reflexivity|]. split; [auto|]. exists [], it. rewrite app_nil_r. auto. }
    intros w1 values Hp. apply post_get. destruct (is_nil (maxes (kc s))) eqn:Hnil.
    { pose proof (frame_maxes_nil s HF Hnil) as Hc. destruct (frame_nil_state s HF Hc) as (ix & off & Es & HI). rewrite Hc. cbn [app].
      rewrite Es. cbn [kc load]. eapply post_imp; [apply (k_fill_post values w1 ix off 0 (load (kc s)) Hld)| |].
      - intros _ s' (H1 & H2 & H3). rewrite H3. auto.
      - intros e s' (H1 & H2 & H3). rewrite H3. split; [exact H1|]. split; [exact H2|]. split; [auto|]. exists values, []. rewrite app_nil_r. auto. }
    assert (Hne : contents (kc s) <> []).
    { intros Hc. destruct (frame_nil_state s HF Hc) as (ix & off & Es & HI). rewrite Es in Hnil. discriminate. }
    destruct (len (kc s) <=? length values * 4).
    - apply post_mod.
      apply post_get.
      assert (Hcc : concat (lists (kc (on_kc (fun c => set_lists (lists c ++ [values]) c) s))) = contents (kc s) ++ values).
      { cbn. rewrite concat_app. cbn [concat]. rewrite app_nil_r. reflexivity. }
      eapply post_user; [apply (calls_sort_key srt klt kf R _ Hsrt R_klt R_kf)| |].
      2:{ intros w' e He. split; [exact He|]. split; [reflexivity|]. split; [contradiction|]. exists values, []. rewrite app_nil_r. split; [|exact Hp].
          unfold contents at 1. cbn [snd]. rewrite Hcc. reflexivity. }
      intros w2 all Hall. rewrite Hcc in Hall.
      unfold skl_clear. apply post_mod. ev. eapply post_imp; [apply (k_fill_post all w2 [] (offset (kc s)) 0 (load (kc s)) Hld)| |].
      + intros _ s' (H1 & H2 & H3). split; [exact H1|]. split; [exact H2|]. rewrite H3, Hall, Hp. reflexivity.
      + intros e s' (H1 & H2 & H3). split; [exact H1|]. split; [exact H2|]. split; [contradiction|]. exists values, []. rewrite app_nil_r, H3, Hall. auto.
    - eapply post_imp; [apply (k_adds_post values w1 s HF)| |].
      + intros _ s' (H1 & H2 & H3). split; [exact H1|]. split; [exact H2|]. rewrite H3, Hp. reflexivity.
      + intros e s' (H1 & H2 & us & ws & H3 & ->). split; [exact H1|]. split; [exact H2|]. split; [contradiction|]. exists us, ws. auto.
  Qed.

  (** *** Lookups *)
  Lemma frame_next (s : SKL) p i j l : Frame s -> Locate (lists (kc s)) p i j -> getn (lists (kc s)) p = Ok l ->
    (i + 1 < length l /\ Locate (lists (kc s)) p (i + 1) (Datatypes.S j)) \/
    (i + 1 = length l /\ p + 1 = length (keys s)) \/
    (i + 1 = length l /\ p + 1 < length (keys s) /\ Locate (lists (kc s)) (p + 1) 0 (Datatypes.S j) /\
     exists ks' l', getn (keys s) (p + 1) = Ok ks' /\ getn (lists (kc s)) (p + 1) = Ok l' /\ length ks' = length l').
  Proof.
    intros (rows & H & _) HL Hg. destruct (locate_next ukf (forget s) rows p i j l H HL Hg) as [A|[(A & B & _)|(A & B & C & ks' & l' & D & E & F)]];
      cbn [forget keys kc] in *; rewrite ?map_length in *.
    - left. exact A.
    - right. left. auto.
    - right. right. split; [exact A|]. split; [exact B|]. split; [exact C|]. rewrite getn_map in D.
      destruct (getn (keys s) (p + 1)) as [k|e]; [|discriminate]. cbn in D. injection D as <-. exists k, l'.
      split; [reflexivity|]. split; [exact E|]. rewrite <- F. symmetry. apply units_length.
  Qed.
  Lemma frame_get (s : SKL) p i j : Frame s -> Locate (lists (kc s)) p i j ->
    exists ks l x k, getn (keys s) p = Ok ks /\ getn (lists (kc s)) p = Ok l /\ getn ks i = Ok k /\ getn l i = Ok x /\ length ks = length l /\
      j < length (contents (kc s)) /\
      exists a b, contents (kc s) = a ++ x :: b /\ length a = j.
  Proof.
    intros HF (X & l & Y & EX & Hp & Hi & Hj).
    assert (Hp' : p < length (lists (kc s))) by (rewrite EX, app_length; cbn; lia).
    destruct (frame_at s p HF Hp') as (LA & l0 & LB & KA & kk & KB & E1 & E2 & E3 & E4 & E5 & E6).
    assert (G1 : getn (lists (kc s)) p = Ok l) by (rewrite EX; apply getn_app'; auto).
    assert (l0 = l) by (rewrite E1, (getn_app' LA l0 LB) in G1 by auto; congruence). subst l0.
    destruct (split_at l i Hi) as (a & x & b & El & Ha). destruct (getn_lt kk i) as (k & Gk); [lia|].
    exists kk, l, x, k. split; [rewrite E2; apply getn_app'; auto|]. split; [exact G1|]. split; [exact Gk|].
    split; [rewrite El; apply getn_app'; auto|]. split; [exact E5|].
    assert (Ec : contents (kc s) = (concat X ++ a) ++ x :: (b ++ concat Y)).
    { unfold contents. rewrite EX, concat_app. cbn [concat]. rewrite El, <- !app_assoc. reflexivity. }
    split; [rewrite Ec, !app_length; cbn; lia|]. exists (concat X ++ a), (b ++ concat Y). split; [exact Ec|]. rewrite app_length. lia.
  Qed.
  (** Inside a sublist, or right behind it. *)
  Lemma frame_bnd (s : SKL) p i l : Frame s -> getn (lists (kc s)) p = Ok l -> i <= length l ->
    exists j, Bnd (lists (kc s)) p i j /\ j <= length (contents (kc s)) /\ (i < length l -> Locate (lists (kc s)) p i j).
  Proof.
    intros HF G Hi. apply getn_Ok in G as (X & Y & EX & HX). exists (length (concat X) + i). split; [|split].
    - exists X, l, Y. auto.
    - unfold contents. rewrite EX, concat_app, app_length. cbn. rewrite app_length. lia.
    - intros Hi'. exists X, l, Y. auto.
  Qed.
  Lemma frame_row (s : SKL) pos : Frame s -> pos < length (lists (kc s)) ->
    exists l ks, getn (lists (kc s)) pos = Ok l /\ getn (keys s) pos = Ok ks /\ length ks = length l.
  Proof.
    intros HF Hp. destruct (frame_at s pos HF Hp) as (LA & l & LB & KA & kk & KB & E1 & E2 & E3 & E4 & E5 & E6).
    exists l, kk. split; [rewrite E1; apply getn_app'; auto|]. split; [rewrite E2; apply getn_app'; auto|exact E5].
  Qed.
  Lemma ktouch_id (s : SKL) : Frame s -> ktouch s s.
  Proof. intros H. split; [reflexivity|]. apply touch_refl, frame_core, H. Qed.
  Lemma ktouch_frame (s s' : SKL) : ktouch s s' -> Frame s -> Frame s'.
  Proof. intros H HF. rewrite (ktouch_set _ _ H). apply frame_touch; [exact HF|apply H]. Qed.
  Lemma k_loc w (s : SKL) p i j : Frame s -> Bnd (lists (kc s)) p i j ->
    exists s', @inner W V K srt klt kf _ (loc p i) (w, s) = (Ok j, (w, s')) /\ ktouch s s'.
  Proof.
    intros HF HB. destruct (loc_ok (kc s) p i j (frame_core s HF) HB) as (c' & E & HT). exists (set_kc c' s).
    unfold inner, oncore, zoom, ek_vt. cbn [vt_get vt_put fst snd]. rewrite E. split; [reflexivity|]. split; [reflexivity|exact HT].
  Qed.
  Lemma scan_fuel_frame (s : SKL) : Frame s -> scan_fuel s = Datatypes.S (length (contents (kc s))).
  Proof.
    intros HF. unfold scan_fuel, contents. f_equal. destruct (frame_lens s HF) as [_ H].
    assert (E : forall A (q : list (list A)), length (concat q) = list_sum (map (@length A) q)).
    { intros A q. induction q as [|x q IH]; [reflexivity|]. cbn. rewrite app_length, IH. reflexivity. }
    rewrite !E, H. reflexivity.
  Qed.
  Lemma calls_lift {A B} (r : res A) a (k : A -> M W B) P Q : r = Ok a -> calls_to (k a) P Q -> calls_to (bind (liftr r) k) P Q.
  Proof. intros -> H. exact H. Qed.

  Definition R_ix (e : exn) : Prop := R e \/ e = IndexError.
  Lemma calls_weak {A} (m : M W A) P (Q Q' : exn -> Prop) : calls_to m P Q -> (forall e, Q e -> Q' e) -> calls_to m P Q'.
  Proof. intros H HQ w. specialize (H w). destruct (fst (m w)); auto. Qed.
  Lemma eq_calls x v : calls_to (eq x v) (fun b => b = true -> may_hold (eq x v)) R_ix.
  Proof.
    intros w. destruct (eq x v w) as [[b|e] w'] eqn:E; cbn.
    - intros ->. exists w, w'. exact E.
    - left. apply (R_eq x v). exists w, w'. exact E.
  Qed.
  Lemma keq_calls x v : calls_to (keq x v) (fun _ => True) R_ix.
  Proof. apply calls_one. intros e H. left. apply (R_keq x v). exact H. Qed.

  Definition found_at (s : SKL) (v : V) (r : option (nat * nat)) : Prop :=
    match r with
    | None => True
    | Some (p, i) => exists a x b, contents (kc s) = a ++ x :: b /\ Locate (lists (kc s)) p i (length a) /\ may_hold (eq x v)
    end.
  Lemma k_scan (s : SKL) key v : Frame s -> forall fuel p i j l, Locate (lists (kc s)) p i j -> getn (lists (kc s)) p = Ok l ->
    length (contents (kc s)) < fuel + j ->
    calls_to (e_scan_loop eq keq fuel s key v p i (length l)) (found_at s v) R_ix.
  Proof.
    intros HF. induction fuel as [|f IH]; intros p i j l HL Hg Hf;
      destruct (frame_get s p i j HF HL) as (ks & l' & x & k & G1 & G2 & G3 & G4 & G5 & G6 & a & b & G7 & G8); [lia|].
    assert (l' = l) by congruence. subst l'. cbn [e_scan_loop].
    apply (calls_lift _ ks); [exact G1|]. apply (calls_lift _ k); [exact G3|].
    eapply calls_bind; [apply keq_calls|]. intros same _. destruct same; cbn [negb]; [|apply calls_ret; exact I].
    apply (calls_lift _ l); [exact G2|]. apply (calls_lift _ x); [exact G4|].
    eapply calls_bind; [apply eq_calls|]. intros found Hfd. destruct found.
    { apply calls_ret. exists a, x, b. split; [exact G7|]. split; [rewrite G8; exact HL|auto]. }
    cbv zeta. destruct (frame_next s p i j l HF HL Hg) as [[Ha Hb]|[(Ha & Hb)|(Ha & Hb & Hc & ks' & l' & Hd & He & Hl)]].
    - destruct (Nat.eqb_spec (i + 1) (length l)); [lia|]. apply (IH _ _ (Datatypes.S j)); [exact Hb|exact Hg|lia].
    - destruct (Nat.eqb_spec (i + 1) (length l)); [|lia]. destruct (Nat.eqb_spec (p + 1) (length (keys s))); [|lia].
      apply calls_ret. exact I.
    - destruct (Nat.eqb_spec (i + 1) (length l)); [|lia]. destruct (Nat.eqb_spec (p + 1) (length (keys s))); [lia|].
      apply (calls_lift _ ks'); [exact Hd|]. rewrite Hl. apply (IH _ _ (Datatypes.S j)); [exact Hc|exact He|lia].
  Qed.
  Lemma k_count_loop (s : SKL) key v : Frame s -> forall fuel p i j l total, Locate (lists (kc s)) p i j -> getn (lists (kc s)) p = Ok l ->
    length (contents (kc s)) < fuel + j -> total <= j ->
    calls_to (e_count_loop eq keq fuel s key v p i (length l) total) (fun n => n <= length (contents (kc s))) R_ix.
  Proof.
    intros HF. induction fuel as [|f IH]; intros p i j l total HL Hg Hf Ht;
      destruct (frame_get s p i j HF HL) as (ks & l' & x & k & G1 & G2 & G3 & G4 & G5 & G6 & a & b & G7 & G8); [lia|].
    assert (l' = l) by congruence. subst l'. cbn [e_count_loop].
    apply (calls_lift _ ks); [exact G1|]. apply (calls_lift _ k); [exact G3|].
    eapply calls_bind; [apply keq_calls|]. intros same _. destruct same; cbn [negb]; [|apply calls_ret; lia].
    apply (calls_lift _ l); [exact G2|]. apply (calls_lift _ x); [exact G4|].
    eapply calls_bind; [apply eq_calls|]. intros found _. cbv zeta.
    set (t := if found then total + 1 else total). assert (Ht' : t <= Datatypes.S j) by (unfold t; destruct found; lia). clearbody t.
    destruct (frame_next s p i j l HF HL Hg) as [[Ha Hb]|[(Ha & Hb)|(Ha & Hb & Hc & ks' & l' & Hd & He & Hl)]].
    - destruct (Nat.eqb_spec (i + 1) (length l)); [lia|]. apply (IH _ _ (Datatypes.S j)); [exact Hb|exact Hg|lia|lia].
    - destruct (Nat.eqb_spec (i + 1) (length l)); [|lia]. destruct (Nat.eqb_spec (p + 1) (length (keys s))); [|lia].
      apply calls_ret. lia.
    - destruct (Nat.eqb_spec (i + 1) (length l)); [|lia]. destruct (Nat.eqb_spec (p + 1) (length (keys s))); [lia|].
      apply (calls_lift _ ks'); [exact Hd|]. rewrite Hl. apply (IH _ _ (Datatypes.S j)); [exact Hc|exact He|lia|lia].
  Qed.

  (** Both scans at the end of a sublist. *)
  Lemma scan_past (s : SKL) key v f p i n ks : getn (keys s) p = Ok ks -> length ks <= i ->
    calls_to (e_scan_loop eq keq (Datatypes.S f) s key v p i n) (found_at s v) R_ix.
  Proof. intros G H w. cbn. unfold bind, liftr. rewrite G. rewrite getn_out by exact H. right. reflexivity. Qed.
  Lemma count_past (s : SKL) key v f p i n t ks P : getn (keys s) p = Ok ks -> length ks <= i ->
    calls_to (e_count_loop eq keq (Datatypes.S f) s key v p i n t) P R_ix.
  Proof. intros G H w. cbn. unfold bind, liftr. rewrite G. rewrite getn_out by exact H. right. reflexivity. Qed.

  Lemma post_user_end {A} (m : M W A) w (s : SKL) P (E : exn -> Prop) (Q : A -> WS -> Prop) (Q' : exn -> WS -> Prop) : calls_to m P E ->
    (forall w' a, P a -> Q a (w', s)) -> (forall w' e, E e -> Q' e (w', s)) -> post (user m) (w, s) Q Q'.
  Proof.
    intros H HQ HE. specialize (H w). unfold post, user, zoom. cbn [fst snd]. destruct (m w) as [[a|e] w']; cbn in *; auto.
  Qed.

  Lemma k_find_post v w (s : SKL) : Frame s ->
    post (ek_find eq klt keq kf v) (w, s) (fun r s' => snd s' = s /\ found_at s v r) (fun e s' => snd s' = s /\ R_ix e).
  Proof.
    intros HF. unfold ek_find. apply post_get. destruct (is_nil (maxes (kc s))); [split; [reflexivity|exact I]|].
    assert (EE : forall (w' : W) e, R e -> snd (w', s) = s /\ R_ix e) by (intros w' e H; split; [reflexivity|left; exact H]).
    eapply post_user; [apply kf_calls| |exact EE]. intros w1 key _.
    eapply post_user; [apply k_left| |exact EE]. intros w2 pos Hpos. cbv beta in Hpos.
    destruct (Nat.eqb_spec pos (length (maxes (kc s)))) as [_|Hn]; [split; [reflexivity|exact I]|].
    destruct (frame_row s pos HF (frame_maxes s pos HF Hpos Hn)) as (l & ks & G1 & G2 & G3).
    apply (post_lift _ ks); [exact G2|]. eapply post_user; [apply k_left| |exact EE]. intros w3 idx Hidx. cbv beta in Hidx.
    rewrite (scan_fuel_frame s HF), G3.
    assert (HC : calls_to (e_scan_loop eq keq (Datatypes.S (length (contents (kc s)))) s key v pos idx (length l)) (found_at s v) R_ix).
    { destruct (Nat.lt_ge_cases idx (length l)) as [Hi|Hi].
      - destruct (frame_bnd s pos idx l HF G1) as (j & _ & Hj & HL); [lia|].
        apply (k_scan s key v HF _ _ _ j); [apply HL; exact Hi|exact G1|lia].
      - eapply scan_past; [exact G2|lia]. }
    eapply post_user_end; [exact HC| |]; intros w' a Ha; (split; [reflexivity|exact Ha]).
  Qed.

  Lemma k_count_post v w (s : SKL) : Frame s ->
    post (ek_count eq klt keq kf v) (w, s) (fun n s' => snd s' = s /\ n <= length (contents (kc s))) (fun e s' => snd s' = s /\ R_ix e).
  Proof.
    intros HF. unfold ek_count. apply post_get. destruct (is_nil (maxes (kc s))); [split; [reflexivity|lia]|].
    assert (EE : forall (w' : W) e, R e -> snd (w', s) = s /\ R_ix e) by (intros w' e H; split; [reflexivity|left; exact H]).
    eapply post_user; [apply kf_calls| |exact EE]. intros w1 key _.
    eapply post_user; [apply k_left| |exact EE]. intros w2 pos Hpos. cbv beta in Hpos.
    destruct (Nat.eqb_spec pos (length (maxes (kc s)))) as [_|Hn]; [split; [reflexivity|lia]|].
    destruct (frame_row s pos HF (frame_maxes s pos HF Hpos Hn)) as (l & ks & G1 & G2 & G3).
    apply (post_lift _ ks); [exact G2|]. eapply post_user; [apply k_left| |exact EE]. intros w3 idx Hidx. cbv beta in Hidx.
    rewrite (scan_fuel_frame s HF), G3.
    assert (HC : calls_to (e_count_loop eq keq (Datatypes.S (length (contents (kc s)))) s key v pos idx (length l) 0)
                   (fun n => n <= length (contents (kc s))) R_ix).
    { destruct (Nat.lt_ge_cases idx (length l)) as [Hi|Hi].
      - destruct (frame_bnd s pos idx l HF G1) as (j & _ & Hj & HL); [lia|].
        apply (k_count_loop s key v HF _ _ _ j); [apply HL; exact Hi|exact G1|lia|lia].
      - eapply count_past; [exact G2|lia]. }
    eapply post_user_end; [exact HC| |]; intros w' a Ha; (split; [reflexivity|exact Ha]).
  Qed.

  Lemma k_rank_post bis key w (s : SKL) : searches R bis -> Frame s ->
    post (ek_rank_key srt klt kf bis key) (w, s) (fun n s' => ktouch s (snd s') /\ n <= length (contents (kc s)))
      (fun e s' => ktouch s (snd s') /\ R e).
  Proof.
    intros Hb HF. pose proof (ktouch_id s HF) as Hid. unfold ek_rank_key. apply post_get.
    destruct (is_nil (maxes (kc s))); [split; [exact Hid|lia]|].
    assert (EE : forall (w' : W) e, R e -> ktouch s (snd (w', s)) /\ R e) by (intros w' e H; split; [exact Hid|exact H]).
    eapply post_user; [apply Hb| |exact EE]. intros w2 pos Hpos. cbv beta in Hpos.
    destruct (Nat.eqb_spec pos (length (maxes (kc s)))) as [_|Hn].
    { split; [exact Hid|]. rewrite (co_len _ (frame_core s HF)). lia. }
    destruct (frame_row s pos HF (frame_maxes s pos HF Hpos Hn)) as (l & ks & G1 & G2 & G3).
    apply (post_lift _ ks); [exact G2|]. eapply post_user; [apply Hb| |exact EE]. intros w3 idx Hidx. cbv beta in Hidx.
    destruct (frame_bnd s pos idx l HF G1) as (j & HB & Hj & _); [lia|].
    destruct (k_loc w3 s pos idx j HF HB) as (s' & E & HT). unfold post. rewrite E. auto.
  Qed.

  Definition R_val (e : exn) : Prop := R e \/ e = ValueError \/ e = IndexError.
  Lemma k_index_loop (s0 : SKL) key v start stop : Frame s0 -> forall fuel w (s : SKL) p i j l, ktouch s0 s ->
    Locate (lists (kc s0)) p i j -> getn (lists (kc s0)) p = Ok l -> length (contents (kc s0)) < fuel + j ->
    post (e_index_loop srt eq klt keq kf fuel key v start stop p i (length l)) (w, s)
      (fun n s' => ktouch s0 (snd s') /\ n < length (contents (kc s0))) (fun e s' => ktouch s0 (snd s') /\ R_val e).
  Proof.
    intros HF0. induction fuel as [|f IH]; intros w s p i j l HT HL Hg Hf;
      destruct (frame_get s0 p i j HF0 HL) as (ks & l' & x & k & G1 & G2 & G3 & G4 & G5 & G6 & a & b & G7 & G8); [lia|].
    assert (l' = l) by congruence. subst l'. cbn [e_index_loop]. apply post_get.
    assert (EE : forall (s : SKL) (w' : W) e, ktouch s0 s -> R e -> ktouch s0 (snd (w', s)) /\ R_val e) by (intros s1 w' e H1 H; split; [exact H1|left; exact H]).
    pose proof (proj1 HT) as HK. pose proof (ktouch_lists _ _ HT) as Hls.
    apply (post_lift _ ks); [congruence|]. apply (post_lift _ k); [exact G3|].
    eapply post_user; [apply (calls_one _ R); intros e; apply R_keq| |intros w' e; apply EE; exact HT]. intros w1 same _.
    destruct same; cbn [negb]; [|split; [exact HT|right; left; reflexivity]].
    apply (post_lift _ l); [congruence|]. apply (post_lift _ x); [exact G4|].
    eapply post_user; [apply (calls_one _ R); intros e; apply R_eq| |intros w' e; apply EE; exact HT]. intros w2 found _. cbv zeta.
    assert (Cont : forall w3 s3, ktouch s0 s3 ->
      post (if i + 1 =? length l then
              if p + 1 =? length (keys s) then raise ValueError
              else
                ks' <- own (liftr (getn (keys s) (p + 1))) ;;
                e_index_loop srt eq klt keq kf f key v start stop (p + 1) 0 (length ks')
            else e_index_loop srt eq klt keq kf f key v start stop p (i + 1) (length l)) (w3, s3)
      (fun n s' => ktouch s0 (snd s') /\ n < length (contents (kc s0))) (fun e s' => ktouch s0 (snd s') /\ R_val e)).
    { intros w3 s3 HT3. rewrite HK.
      destruct (frame_next s0 p i j l HF0 HL Hg) as [[Ha Hb]|[(Ha & Hb)|(Ha & Hb & Hc & ks' & l' & Hd & He & Hl)]].
      - destruct (Nat.eqb_spec (i + 1) (length l)); [lia|]. apply (IH _ _ _ _ (Datatypes.S j)); auto. lia.
      - destruct (Nat.eqb_spec (i + 1) (length l)); [|lia]. destruct (Nat.eqb_spec (p + 1) (length (keys s0))); [|lia].
        split; [exact HT3|right; left; reflexivity].
      - destruct (Nat.eqb_spec (i + 1) (length l)); [|lia]. destruct (Nat.eqb_spec (p + 1) (length (keys s0))); [lia|].
        apply (post_lift _ ks'); [exact Hd|]. rewrite Hl. apply (IH _ _ _ _ (Datatypes.S j)); auto. lia. }
    destruct found; [|apply Cont; exact HT].
    assert (HF : Frame s) by (eapply ktouch_frame; eauto).
    assert (HL' : Locate (lists (kc s)) p i j) by (rewrite Hls; exact HL).
    destruct (k_loc w2 s p i j HF (locate_bnd _ _ _ _ HL')) as (s' & E & HT').
    eapply post_bind with (P := fun n q => n = j /\ ktouch s (snd q)); [unfold post; rewrite E; auto|].
    intros n [w3 s3] [-> HT3]. cbn [snd] in HT3. pose proof (ktouch_trans _ _ _ HT HT3) as HT4.
    destruct ((start <=? Z.of_nat j) && (Z.of_nat j <=? stop))%Z; [split; [exact HT4|exact G6]|].
    destruct (stop <? Z.of_nat j)%Z; [split; [exact HT4|right; left; reflexivity]|]. apply Cont. exact HT4.
  Qed.
  Lemma k_index_post v start stop w (s : SKL) : Frame s ->
    post (ek_index srt eq klt keq kf v start stop) (w, s) (fun n s' => ktouch s (snd s') /\ n < length (contents (kc s)))
      (fun e s' => ktouch s (snd s') /\ R_val e).
  Proof.
    intros HF. pose proof (ktouch_id s HF) as Hid. unfold ek_index. apply post_get.
    assert (VE : forall w : W, post (raise ValueError) (w, s) (fun n s' => ktouch s (snd s') /\ n < length (contents (kc s)))
      (fun e s' => ktouch s (snd s') /\ R_val e)) by (intros; split; [exact Hid|right; left; reflexivity]).
    destruct (len (kc s) =? 0); [apply VE|]. cbv zeta.
    destruct (index_stop stop (Z.of_nat (len (kc s))) <=? index_start start (Z.of_nat (len (kc s))))%Z; [apply VE|].
    assert (EE : forall (w' : W) e, R e -> ktouch s (snd (w', s)) /\ R_val e) by (intros w' e H; split; [exact Hid|left; exact H]).
    eapply post_user; [apply kf_calls| |exact EE]. intros w1 key _.
    eapply post_user; [apply k_left| |exact EE]. intros w2 pos Hpos. cbv beta in Hpos.
    destruct (Nat.eqb_spec pos (length (maxes (kc s)))) as [_|Hn]; [apply VE|].
    destruct (frame_row s pos HF (frame_maxes s pos HF Hpos Hn)) as (l & ks & G1 & G2 & G3).
    apply (post_lift _ ks); [exact G2|]. eapply post_user; [apply k_left| |exact EE]. intros w3 idx Hidx. cbv beta in Hidx.
    rewrite (scan_fuel_frame s HF), G3. destruct (Nat.lt_ge_cases idx (length l)) as [Hi|Hi].
    - destruct (frame_bnd s pos idx l HF G1) as (j & _ & Hj & HL); [lia|].
      apply (k_index_loop s key v _ _ HF _ w3 s _ _ j); [exact Hid|apply HL; exact Hi|exact G1|lia].
    - cbn [e_index_loop]. apply post_get. apply (post_lift _ ks); [exact G2|].
      eapply post_lift_err; [apply getn_out; lia|]. split; [exact Hid|right; right; reflexivity].
  Qed.

  Lemma slicen_stretch (l : list V) j j' reverse : stretch l reverse (RList (if reverse then rev (slicen l j j') else slicen l j j')).
  Proof.
    exists (firstn j l), (slicen l j j'), (skipn (j' - j) (skipn j l)). split; [|destruct reverse; reflexivity].
    unfold slicen. rewrite firstn_skipn, firstn_skipn. reflexivity.
  Qed.
  Lemma k_irange_post mn mx imin imax reverse w (s : SKL) : Frame s ->
    post (ek_irange_key klt mn mx imin imax reverse) (w, s)
      (fun r s' => snd s' = s /\ stretch (contents (kc s)) reverse (RList r)) (fun e s' => snd s' = s /\ R e).
  Proof.
    intros HF. unfold ek_irange_key. apply post_get. cbv zeta. destruct (is_nil (maxes (kc s))) eqn:Hnil.
    { split; [reflexivity|]. exists [], [], (contents (kc s)). destruct reverse; auto. }
    assert (EE : forall (w' : W) e, R e -> snd (w', s) = s /\ R e) by (intros w' e H; split; [reflexivity|exact H]).
    assert (SB : forall b : bool, searches R (if b then e_bisect_left klt else e_bisect_right klt)) by (intros []; [apply k_left|apply k_right]).
    assert (SB' : forall b : bool, searches R (if b then e_bisect_right klt else e_bisect_left klt)) by (intros []; [apply k_right|apply k_left]).
    destruct (frame_row s _ HF (frame_last s HF Hnil)) as (le & kse & Ge1 & Ge2 & Ge3).
    apply post_bind with (P := fun o q => snd q = s /\ match o with None => True | Some (p, i) => exists j, Bnd (lists (kc s)) p i j end).
    { destruct mn as [m|].
      - eapply post_user; [apply SB| |exact EE]. intros w1 pos Hpos. cbv beta in Hpos.
        destruct (Nat.eqb_spec pos (length (maxes (kc s)))) as [_|Hn]; [split; [reflexivity|exact I]|].
        destruct (frame_row s pos HF (frame_maxes s pos HF Hpos Hn)) as (l & ks & G1 & G2 & G3).
        apply (post_lift _ ks); [exact G2|]. eapply post_user; [apply SB| |exact EE]. intros w2 idx Hidx. cbv beta in Hidx.
        destruct (frame_bnd s pos idx l HF G1) as (j & HB & _); [lia|]. split; [reflexivity|]. exists j. exact HB.
      - split; [reflexivity|]. assert (H0 : 0 < length (lists (kc s))) by (pose proof (frame_last s HF Hnil); lia).
        destruct (frame_row s 0 HF H0) as (l & ks & G1 & G2 & G3).
        destruct (frame_bnd s 0 0 l HF G1) as (j & HB & _); [lia|]. exists j. exact HB. }
    intros [[mp mi]|] [w1 s1] [Hs HB]; cbn [snd] in Hs; subst s1.
    2:{ split; [reflexivity|]. exists [], [], (contents (kc s)). destruct reverse; auto. }
    destruct HB as (j & HB).
    apply post_bind with (P := fun o q => snd q = s /\ exists j, Bnd (lists (kc s)) (fst o) (snd o) j).
    { destruct mx as [m|].
      - eapply post_user; [apply SB'| |exact EE]. intros w2 pos Hpos. cbv beta in Hpos.
        destruct (Nat.eqb_spec pos (length (maxes (kc s)))) as [->|Hn].
        + apply (post_lift _ kse); [exact Ge2|]. split; [reflexivity|].
          destruct (frame_bnd s _ (length kse) le HF Ge1) as (j' & HB' & _); [lia|]. exists j'. exact HB'.
        + destruct (frame_row s pos HF (frame_maxes s pos HF Hpos Hn)) as (l & ks & G1 & G2 & G3).
          apply (post_lift _ ks); [exact G2|]. eapply post_user; [apply SB'| |exact EE]. intros w3 idx Hidx. cbv beta in Hidx.
          destruct (frame_bnd s pos idx l HF G1) as (j' & HB' & _); [lia|]. split; [reflexivity|]. exists j'. exact HB'.
      - apply (post_lift _ kse); [exact Ge2|]. split; [reflexivity|].
        destruct (frame_bnd s _ (length kse) le HF Ge1) as (j' & HB' & _); [lia|]. exists j'. exact HB'. }
    intros [xp xi] [w2 s2] [Hs (j' & HB')]. cbn [fst snd] in *. subst s2.
    unfold post, own, zoom, liftr. cbn [fst snd]. rewrite (islice_pairs_ok _ _ _ _ _ _ _ reverse HB HB').
    split; [reflexivity|]. apply (slicen_stretch (contents (kc s)) j j' reverse).
  Qed.

  Lemma e_cmp_calls (lt1 eq1 : V -> V -> M W bool) (E : exn -> Prop) : (forall x y e, may_raise (lt1 x y) e -> E e) ->
    (forall x y e, may_raise (eq1 x y) e -> E e) -> forall op a b l o, calls_to (e_cmp_loop lt1 eq1 op a b l o) (fun _ => True) E.
  Proof.
    intros H1 H2 op a b. induction l as [|x l IH]; intros o; [apply calls_ret; exact I|]. destruct o as [|y o]; [apply calls_ret; exact I|].
    cbn [e_cmp_loop]. eapply calls_bind; [apply calls_one; intros e; apply H2|]. intros r _. destruct r; [apply IH|].
    destruct op; cbn; first [apply calls_one; intros e; first [apply H1|apply H2]
      |eapply calls_bind; [apply calls_one; intros e; first [apply H1|apply H2]|intros; apply calls_ret; exact I]].
  Qed.
  Lemma e_compare_calls {K'} (lt1 eq1 : V -> V -> M W bool) (E : exn -> Prop) op other (c : core V K') : (forall x y e, may_raise (lt1 x y) e -> E e) ->
    (forall x y e, may_raise (eq1 x y) e -> E e) -> calls_to (e_compare lt1 eq1 op other c) (fun _ => True) E.
  Proof.
    intros H1 H2. unfold e_compare. cbv zeta. destruct (_ && _); [apply calls_ret; exact I|].
    destruct (_ && _); [apply calls_ret; exact I|]. apply e_cmp_calls; assumption.
  Qed.
End KeyEff.

(** ** SortedList *)
Section ListEff.
  Context {W V : Type}.
  Variable srt : sorting W.
  Variables lt eq : V -> V -> M W bool.
  Hypothesis Hsrt : permutes srt.
  Notation SL := (core V V).
  Notation WS := (W * SL)%type.
  Notation R := (e_raises lt eq).
  Notation idf := (fun v : V => ret v : M W V).

  Lemma R_lt x y e : may_raise (lt x y) e -> R e.
  Proof. intros H. left. eauto. Qed.
  Lemma R_eqv x y e : may_raise (eq x y) e -> R e.
  Proof. intros H. right. eauto. Qed.
  Lemma l_right : searches R (e_bisect_right lt).
  Proof. apply e_right_ok. apply R_lt. Qed.
  Lemma l_left : searches R (e_bisect_left lt).
  Proof. apply e_left_ok. apply R_lt. Qed.
  Lemma R_id e : ek_raises lt eq lt eq idf e -> R e.
  Proof. intros [H|[H|(v & w & w' & H)]]; [exact H|exact H|discriminate]. Qed.

  Lemma shape_frame {K} (kf : V -> res K) (s : skl V K) : Shape kf s -> Frame s.
  Proof.
    intros (rows & H & Hlen). destruct H as [H1 H2 H3 H4 H5 H6 H7]. apply frame_of.
    - exact H5.
    - exact Hlen.
    - rewrite H1, H3, !map_length. reflexivity.
    - rewrite H1, H2, !map_map. apply map_ext_in. intros r Hr. rewrite Forall_forall in H4. apply (row_ok_len kf r), H4, Hr.
    - rewrite H1. apply Forall_map. eapply Forall_impl; [|exact H4]. intros r Hr E. pose proof (row_ok_ne kf r Hr) as G. rewrite E in G. cbn in G. lia.
    - rewrite H1. exact H6.
    - rewrite H1, map_map. exact H7.
  Qed.

  Ltac evf := ev; cbn [fst snd]; ev; cbn [fst snd].
  Lemma l_add_sim v w (c : SL) : ek_add lt idf v (w, embed c) =
    (fst (e_add lt v (w, c)), (fst (snd (e_add lt v (w, c))), embed (snd (snd (e_add lt v (w, c)))))).
  Proof.
    unfold e_add, ek_add. unfold bind, user, own, zoom, liftr, get, ret, modifyR, modify. destruct c as [ls ms ix off n ld]. unfold embed.
    evf. destruct (is_nil ms); [reflexivity|]. evf.
    destruct (e_bisect_right lt ms v w) as [[pos|e] w1]; [|reflexivity]. evf.
    destruct (pos =? length ms).
    - evf. destruct (updn ls (pos - 1) _) as [ls'|e] eqn:Eu; [|reflexivity]. evf. rewrite Eu. evf.
      destruct (setn ms (pos - 1) v) as [ms'|e]; [|reflexivity]. evf.
      pose proof (ListSim.sim_expand (pos - 1) (mkcore ls' ms' ix off n ld)) as H. unfold SimAt, embed in H. cbn [lists] in H.
      rewrite H. destruct (sl_expand (pos - 1) _) as [[u|e] c']; reflexivity.
    - evf. destruct (getn ls pos) as [l|e]; [|reflexivity]. evf.
      destruct (e_bisect_right lt l v w1) as [[idx|e] w2]; [|reflexivity]. evf.
      destruct (updn ls pos _) as [ls'|e] eqn:Eu; [|reflexivity]. evf. rewrite Eu. evf.
      pose proof (ListSim.sim_expand pos (mkcore ls' ms ix off n ld)) as H. unfold SimAt, embed in H. cbn [lists] in H.
      rewrite H. destruct (sl_expand pos _) as [[u|e] c']; reflexivity.
  Qed.
  Lemma embed_inj (c c' : SL) : embed c = embed c' -> c = c'.
  Proof. unfold embed. congruence. Qed.
  Lemma l_add_post v w (c : SL) : FrameL c ->
    post (e_add lt v) (w, c)
      (fun _ (s' : WS) => FrameL (snd s') /\ load (snd s') = load c /\ exists l1 l2, contents c = l1 ++ l2 /\ contents (snd s') = l1 ++ v :: l2)
      (fun e (s' : WS) => snd s' = c /\ R e).
  Proof.
    intros HF. pose proof (k_add_post lt eq lt eq idf v w (embed c) HF) as H. unfold post in H. rewrite l_add_sim in H.
    unfold post. destruct (e_add lt v (w, c)) as [[u|e] [w' c']]; cbn [fst snd] in *.
    - exact H.
    - destruct H as [H1 H2]. split; [apply embed_inj; exact H1|]. apply R_id. exact H2.
  Qed.
  Lemma l_adds_post vs : forall w (c : SL), FrameL c ->
    post (forM (e_add lt) vs) (w, c)
      (fun _ (s' : WS) => FrameL (snd s') /\ load (snd s') = load c /\ Permutation (contents (snd s')) (contents c ++ vs))
      (fun e (s' : WS) => R e /\ load (snd s') = load c /\ FrameL (snd s') /\
         exists us ws, Permutation (contents (snd s')) (contents c ++ us) /\ vs = us ++ ws).
  Proof.
    induction vs as [|v vs IH]; intros w s HF; cbn [forM].
    - unfold post, ret. cbn. rewrite app_nil_r. auto.
    - eapply post_bind.
      + eapply post_imp; [apply (l_add_post v w s HF)|intros a s' H; exact H|].
        intros e s' [-> H]. split; [exact H|]. split; [reflexivity|]. split; [exact HF|]. exists [], (v :: vs). rewrite app_nil_r. auto.
      + intros _ [w' s'] (H1 & H2 & l1 & l2 & H3 & H4). cbn [snd] in *.
        assert (HP : Permutation (contents s') (contents s ++ [v])).
        { rewrite H3, H4, <- app_assoc. apply Permutation_app_head. apply Permutation_cons_append. }
        eapply post_imp; [apply (IH w' s' H1)| |].
        * intros _ s2 (G1 & G2 & G3). split; [exact G1|]. split; [congruence|]. rewrite G3, HP, <- app_assoc. reflexivity.
        * intros e s2 (G1 & G2 & G4 & us & ws & G3 & ->). split; [exact G1|]. split; [congruence|]. split; [exact G4|]. exists (v :: us), ws.
          split; [|reflexivity]. rewrite G3, HP, <- app_assoc. reflexivity.
  Qed.
  Lemma l_fill values ix off n ld : 1 <= ld -> exists c', sl_fill values (mkcore [] [] ix off n ld : SL) = (Ok tt, c') /\ FrameL c' /\
    load c' = ld /\ contents c' = values.
  Proof.
    intros Hld. pose proof (ListSim.sim_fill values (mkcore [] [] ix off n ld : SL) eq_refl) as H. unfold SimAt, embed in H. cbn [lists] in H.
    destruct (skl_fill_ok (@ident V) values values ix off ld n (mapR_ident values) Hld) as (s' & H1 & H2 & H3 & H4).
    rewrite H1 in H. injection H as Ha Hb. exists (snd (sl_fill values (mkcore [] [] ix off n ld : SL))).
    split; [rewrite Ha; apply surjective_pairing|]. rewrite Hb in H2, H3, H4.
    split; [exact (shape_frame _ _ H2)|]. split; [exact H4|exact H3].
  Qed.
  Lemma l_update_post it w (c : SL) : FrameL c ->
    post (e_update srt lt it) (w, c)
      (fun _ (s' : WS) => FrameL (snd s') /\ load (snd s') = load c /\ Permutation (contents (snd s')) (contents c ++ it))
      (fun e (s' : WS) => R e /\ load (snd s') = load c /\ (contents c = [] -> snd s' = c) /\
         exists vs ws, Permutation (contents (snd s')) (contents c ++ vs) /\ Permutation (vs ++ ws) it).
  Proof.
    intros HF. assert (Hld := frame_load _ HF). cbn in Hld. unfold e_update.
    eapply post_user; [apply (calls_sort srt lt R it Hsrt R_lt)| |].
    2:{ intros w' e He. split; [exact He|]. split; [reflexivity|]. split; [reflexivity|]. exists [], it. rewrite app_nil_r. auto. }
    intros w1 values Hp. apply post_get. destruct (is_nil (maxes c)) eqn:Hnil.
    { pose proof (frame_maxes_nil _ HF Hnil) as Hc. destruct (frame_nil_state _ HF Hc) as (ix & off & Es & HI). cbn in Hc. rewrite Hc. cbn [app].
      injection Es as Es _. cbn in Es. rewrite Es. destruct (l_fill values ix off 0 (load c) Hld) as (c' & H1 & H2 & H3 & H4).
      unfold post, own, zoom. cbn [fst snd]. rewrite H1. cbn [fst snd load]. rewrite H4. auto. }
    assert (Hne : contents c <> []).
    { intros Hc. destruct (frame_nil_state _ HF Hc) as (ix & off & Es & HI). injection Es as Es _. rewrite Es in Hnil. discriminate. }
    destruct (len c <=? length values * 4).
    - apply post_mod. apply post_get.
      assert (Hcc : concat (lists (set_lists (lists c ++ [values]) c)) = contents c ++ values).
      { cbn. rewrite concat_app. cbn [concat]. rewrite app_nil_r. reflexivity. }
      eapply post_user; [apply (calls_sort srt lt R _ Hsrt R_lt)| |].
      2:{ intros w' e He. split; [exact He|]. split; [reflexivity|]. split; [contradiction|]. exists values, []. rewrite app_nil_r. split; [|exact Hp].
          unfold contents at 1. cbn [snd]. rewrite Hcc. reflexivity. }
      intros w2 all Hall. rewrite Hcc in Hall.
      unfold sl_clear. apply post_mod. ev. destruct (l_fill all [] 0 0 (load c) Hld) as (c' & H1 & H2 & H3 & H4).
      unfold post, own, zoom. cbn [fst snd]. rewrite H1. split; [exact H2|]. split; [exact H3|]. cbn [snd]. rewrite H4, Hall, Hp. reflexivity.
    - eapply post_imp; [apply (l_adds_post values w1 c HF)| |].
      + intros _ s' (H1 & H2 & H3). split; [exact H1|]. split; [exact H2|]. rewrite H3, Hp. reflexivity.
      + intros e s' (H1 & H2 & _ & us & ws & H3 & ->). split; [exact H1|]. split; [exact H2|]. split; [contradiction|]. exists us, ws. auto.
  Qed.

  Lemma l_row (c : SL) pos : FrameL c -> pos <= length (maxes c) -> pos <> length (maxes c) -> exists l, getn (lists c) pos = Ok l.
  Proof. intros HF H1 H2. apply getn_lt. apply (frame_maxes (embed c)); assumption. Qed.
  Lemma l_bnd (c : SL) p i l : FrameL c -> getn (lists c) p = Ok l -> i <= length l ->
    exists j, Bnd (lists c) p i j /\ j <= length (contents c) /\ (i < length l -> Locate (lists c) p i j).
  Proof. apply (frame_bnd (embed c)). Qed.

  Lemma l_find_post {A} v (absent : A) (found : nat -> nat -> bool -> M WS A) miss w (c : SL) (Q : A -> WS -> Prop) (E : exn -> WS -> Prop) :
    FrameL c -> (forall w, post miss (w, c) Q E) ->
    (forall w p i a x b e, contents c = a ++ x :: b -> Locate (lists c) p i (length a) -> (e = true -> may_hold (eq x v)) ->
       post (found p i e) (w, c) Q E) ->
    (forall w e, R e \/ e = IndexError -> E e (w, c)) ->
    post (e_find lt eq v miss found) (w, c) Q E.
  Proof.
    intros HF Hmiss Hfound HE. unfold e_find. apply post_get. destruct (is_nil (maxes c)); [apply Hmiss|].
    assert (EE : forall (w' : W) e, R e -> E e (w', c)) by auto.
    eapply post_user; [apply l_left| |exact EE]. intros w2 pos Hpos. cbv beta in Hpos.
    destruct (Nat.eqb_spec pos (length (maxes c))) as [_|Hn]; [apply Hmiss|].
    destruct (l_row c pos HF Hpos Hn) as (l & G). apply (post_lift _ l); [exact G|].
    eapply post_user; [apply l_left| |exact EE]. intros w3 idx Hidx. cbv beta in Hidx.
    destruct (Nat.lt_ge_cases idx (length l)) as [Hi|Hi].
    - destruct (l_bnd c pos idx l HF G Hidx) as (j & _ & _ & HL). specialize (HL Hi).
      destruct (frame_get (embed c) pos idx j HF HL) as (ks & l' & x & k & G1 & G2 & G3 & G4 & G5 & G6 & a & b & G7 & G8).
      assert (l' = l) by (cbn in G2; congruence). subst l'. apply (post_lift _ x); [exact G4|].
      eapply post_user with (P := fun b => b = true -> may_hold (eq x v)) (R := R); [| |exact EE].
      + intros w'. destruct (eq x v w') as [[e|e] w''] eqn:Ee; cbn; [intros ->; exists w', w''; exact Ee|].
        apply (R_eqv x v). exists w', w''. exact Ee.
      + intros w4 e He. eapply Hfound; [exact G7|rewrite G8; exact HL|exact He].
    - eapply post_lift_err; [apply getn_out; lia|]. apply HE. right. reflexivity.
  Qed.

  Lemma l_rank_post bis v w (c : SL) : searches R bis -> FrameL c ->
    post (e_rank bis v) (w, c) (fun n (s' : WS) => touch c (snd s') /\ n <= length (contents c)) (fun e (s' : WS) => touch c (snd s') /\ R e).
  Proof.
    intros Hb HF. pose proof (touch_refl c (framel_core c HF)) as Hid. unfold e_rank. apply post_get.
    destruct (is_nil (maxes c)); [split; [exact Hid|lia]|].
    assert (EE : forall (w' : W) e, R e -> touch c (snd (w', c)) /\ R e) by (intros w' e H; split; [exact Hid|exact H]).
    eapply post_user; [apply Hb| |exact EE]. intros w2 pos Hpos. cbv beta in Hpos.
    destruct (Nat.eqb_spec pos (length (maxes c))) as [_|Hn].
    { split; [exact Hid|]. rewrite (co_len _ (framel_core c HF)). lia. }
    destruct (l_row c pos HF Hpos Hn) as (l & G). apply (post_lift _ l); [exact G|].
    eapply post_user; [apply Hb| |exact EE]. intros w3 idx Hidx. cbv beta in Hidx.
    destruct (l_bnd c pos idx l HF G Hidx) as (j & HB & Hj & _).
    destruct (loc_ok c pos idx j (framel_core c HF) HB) as (c' & E & HT). unfold post, own, zoom. cbn [fst snd]. rewrite E. auto.
  Qed.
  Lemma l_loc w (c0 c : SL) p i j B (k : nat -> M WS B) Q E : FrameL c0 -> touch c0 c -> Bnd (lists c0) p i j ->
    (forall c', touch c0 c' -> post (k j) (w, c') Q E) -> post (bind (own (loc p i)) k) (w, c) Q E.
  Proof.
    intros HF HT HB HK. assert (HF' := framel_touch c0 c HF HT).
    destruct (loc_ok c p i j (framel_core c HF')) as (c' & E1 & HT'); [rewrite (touch_lists _ _ HT); exact HB|].
    unfold post, bind, own, zoom. cbn [fst snd]. rewrite E1. apply HK. eapply touch_trans; eauto.
  Qed.
  Lemma subc_post w (c : SL) a b n (Q : nat -> WS -> Prop) (E : exn -> WS -> Prop) : a <= n -> (forall m, m <= n -> Q m (w, c)) -> E Underflow (w, c) ->
    post (own (liftr (subc a b))) (w, c) Q E.
  Proof.
    intros Ha HQ HE. unfold post, own, zoom, liftr. cbn [fst snd]. unfold subc. destruct (b <=? a); [apply HQ; lia|exact HE].
  Qed.
  Lemma l_count_post v w (c : SL) : FrameL c ->
    post (e_count lt v) (w, c) (fun n (s' : WS) => touch c (snd s') /\ n <= length (contents c)) (fun e (s' : WS) => touch c (snd s') /\ (R e \/ e = Underflow)).
  Proof.
    intros HF. pose proof (touch_refl c (framel_core c HF)) as Hid. pose proof (co_len _ (framel_core c HF)) as Hlen. unfold e_count. apply post_get.
    destruct (is_nil (maxes c)); [split; [exact Hid|lia]|].
    assert (EE : forall (w' : W) e, R e -> touch c (snd (w', c)) /\ (R e \/ e = Underflow)) by (intros w' e H; split; [exact Hid|left; exact H]).
    eapply post_user; [apply l_left| |exact EE]. intros w2 pos Hpos. cbv beta in Hpos.
    destruct (Nat.eqb_spec pos (length (maxes c))) as [_|Hn]; [split; [exact Hid|lia]|].
    destruct (l_row c pos HF Hpos Hn) as (l & G). apply (post_lift _ l); [exact G|].
    eapply post_user; [apply l_left| |exact EE]. intros w3 idx Hidx. cbv beta in Hidx.
    destruct (l_bnd c pos idx l HF G Hidx) as (j & HB & Hj & _).
    eapply post_user; [apply l_right| |exact EE]. intros w4 pos2 Hpos2. cbv beta in Hpos2.
    destruct (Nat.eqb_spec pos2 (length (maxes c))) as [_|Hn2].
    { apply (l_loc w4 c c pos idx j _ _ _ _ HF Hid HB). intros c' HT. eapply (subc_post _ _ _ _ (length (contents c))); [lia| |].
      - intros m Hm. split; [exact HT|exact Hm].
      - split; [exact HT|right; reflexivity]. }
    destruct (l_row c pos2 HF Hpos2 Hn2) as (l2 & G2). apply (post_lift _ l2); [exact G2|].
    eapply post_user; [apply l_right| |exact EE]. intros w5 idx2 Hidx2. cbv beta in Hidx2.
    destruct (l_bnd c pos2 idx2 l2 HF G2 Hidx2) as (j2 & HB2 & Hj2 & _).
    destruct (Nat.eqb_spec pos pos2) as [->|_].
    { assert (l2 = l) by congruence. subst l2. eapply (subc_post _ _ _ _ (length (contents c))).
      - destruct HB2 as (X & l0 & Y & E1 & E2 & E3 & E4). lia.
      - intros m Hm. split; [exact Hid|exact Hm].
      - split; [exact Hid|right; reflexivity]. }
    apply (l_loc w5 c c pos2 idx2 j2 _ _ _ _ HF Hid HB2). intros c1 HT1.
    apply (l_loc w5 c c1 pos idx j _ _ _ _ HF HT1 HB). intros c2 HT2. eapply (subc_post _ _ _ _ (length (contents c))); [exact Hj2| |].
    - intros m Hm. split; [exact HT2|exact Hm].
    - split; [exact HT2|right; reflexivity].
  Qed.
  Lemma l_index_post v start stop w (c : SL) : FrameL c ->
    post (e_index lt eq v start stop) (w, c) (fun n (s' : WS) => touch c (snd s') /\ n < length (contents c))
      (fun e (s' : WS) => touch c (snd s') /\ (R e \/ e = ValueError \/ e = IndexError)).
  Proof.
    intros HF. pose proof (touch_refl c (framel_core c HF)) as Hid. pose proof (co_len _ (framel_core c HF)) as Hlen. unfold e_index. apply post_get.
    assert (VE : forall (w : W) c', touch c c' -> post (raise ValueError) (w, c') (fun n (s' : WS) => touch c (snd s') /\ n < length (contents c))
      (fun e (s' : WS) => touch c (snd s') /\ (R e \/ e = ValueError \/ e = IndexError))) by (intros; split; [assumption|right; left; reflexivity]).
    destruct (len c =? 0); [apply VE, Hid|]. cbv zeta.
    destruct (index_stop stop (Z.of_nat (len c)) <=? index_start start (Z.of_nat (len c)))%Z eqn:Ess; [apply VE, Hid|].
    assert (EE : forall (w' : W) e, R e -> touch c (snd (w', c)) /\ (R e \/ e = ValueError \/ e = IndexError))
      by (intros w' e H; split; [exact Hid|left; exact H]).
    eapply post_user; [apply l_left| |exact EE]. intros w2 pos Hpos. cbv beta in Hpos.
    destruct (Nat.eqb_spec pos (length (maxes c))) as [_|Hn]; [apply VE, Hid|].
    destruct (l_row c pos HF Hpos Hn) as (l & G). apply (post_lift _ l); [exact G|].
    eapply post_user; [apply l_left| |exact EE]. intros w3 idx Hidx. cbv beta in Hidx.
    destruct (Nat.lt_ge_cases idx (length l)) as [Hi|Hi].
    2:{ eapply post_lift_err; [apply getn_out; lia|]. split; [exact Hid|right; right; reflexivity]. }
    destruct (l_bnd c pos idx l HF G Hidx) as (j & HB & _ & HL). specialize (HL Hi).
    destruct (frame_get (embed c) pos idx j HF HL) as (ks & l' & x & k & G1 & G2 & G3 & G4 & G5 & G6 & a & b & G7 & G8).
    assert (l' = l) by (cbn in G2; congruence). subst l'. apply (post_lift _ x); [exact G4|].
    eapply post_user; [apply (calls_one _ R); intros e; apply R_eqv| |exact EE]. intros w4 e _.
    destruct (negb e); [apply VE, Hid|].
    apply (l_loc w4 c c pos idx j _ _ _ _ HF Hid HB). intros c1 HT1.
    destruct (index_start start (Z.of_nat (len c)) <=? Z.of_nat j)%Z.
    - destruct (Z.of_nat j <=? _)%Z; [split; [exact HT1|exact G6]|apply VE, HT1].
    - eapply post_bind with (P := fun n q => touch c (snd q) /\ n <= length (contents c)).
      + eapply post_imp; [apply (l_rank_post _ v w4 c1 l_right); eapply framel_touch; eauto| |].
        * intros n s' [H1 H2]. rewrite (touch_contents _ _ HT1) in H2. split; [eapply touch_trans; eauto|exact H2].
        * intros e' s' [H1 H2]. split; [eapply touch_trans; eauto|left; exact H2].
      + intros n [w5 c5] [H1 H2]. cbn [snd] in *.
        destruct (index_start start (Z.of_nat (len c)) <=? Z.of_nat n - 1)%Z eqn:E3; [|apply VE, H1].
        apply Z.leb_le in E3. split; [exact H1|].
        assert (H0 : (0 <= index_start start (Z.of_nat (len c)))%Z) by (unfold index_start; cbv zeta; destruct (_ <? 0)%Z eqn:EZ; [lia|apply Z.ltb_ge in EZ; exact EZ]).
        lia.
  Qed.

  Lemma l_irange_post mn mx imin imax reverse w (s : SL) : FrameL s ->
    post (e_irange lt mn mx imin imax reverse) (w, s)
      (fun r (s' : WS) => snd s' = s /\ stretch (contents s) reverse (RList r)) (fun e (s' : WS) => snd s' = s /\ R e).
  Proof.
    intros HF. unfold e_irange. apply post_get. cbv zeta. destruct (is_nil (maxes s)) eqn:Hnil.
    { split; [reflexivity|]. exists [], [], (contents s). destruct reverse; auto. }
    assert (EE : forall (w' : W) e, R e -> snd (w', s) = s /\ R e) by (intros w' e H; split; [reflexivity|exact H]).
    assert (SB : forall b : bool, searches R (if b then e_bisect_left lt else e_bisect_right lt)) by (intros []; [apply l_left|apply l_right]).
    assert (SB' : forall b : bool, searches R (if b then e_bisect_right lt else e_bisect_left lt)) by (intros []; [apply l_right|apply l_left]).
    destruct (getn_lt _ _ (frame_last (embed s) HF Hnil)) as (le & Ge1). cbn [embed kc] in Ge1.
    apply post_bind with (P := fun o q => snd q = s /\ match o with None => True | Some (p, i) => exists j, Bnd (lists s) p i j end).
    { destruct mn as [m|].
      - eapply post_user; [apply SB| |exact EE]. intros w1 pos Hpos. cbv beta in Hpos.
        destruct (Nat.eqb_spec pos (length (maxes s))) as [_|Hn]; [split; [reflexivity|exact I]|].
        destruct (l_row s pos HF Hpos Hn) as (l & G1).
        apply (post_lift _ l); [exact G1|]. eapply post_user; [apply SB| |exact EE]. intros w2 idx Hidx. cbv beta in Hidx.
        destruct (l_bnd s pos idx l HF G1) as (j & HB & _); [lia|]. split; [reflexivity|]. exists j. exact HB.
      - split; [reflexivity|]. assert (H0 : 0 < length (lists s)) by (pose proof (frame_last (embed s) HF Hnil) as H; cbn in H; lia).
        destruct (getn_lt _ _ H0) as (l & G1). destruct (l_bnd s 0 0 l HF G1) as (j & HB & _); [lia|]. exists j. exact HB. }
    intros [[mp mi]|] [w1 s1] [Hs HB]; cbn [snd] in Hs; subst s1.
    2:{ split; [reflexivity|]. exists [], [], (contents s). destruct reverse; auto. }
    destruct HB as (j & HB).
    apply post_bind with (P := fun o q => snd q = s /\ exists j, Bnd (lists s) (fst o) (snd o) j).
    { destruct mx as [m|].
      - eapply post_user; [apply SB'| |exact EE]. intros w2 pos Hpos. cbv beta in Hpos.
        destruct (Nat.eqb_spec pos (length (maxes s))) as [->|Hn].
        + apply (post_lift _ le); [exact Ge1|]. split; [reflexivity|].
          destruct (l_bnd s _ (length le) le HF Ge1) as (j' & HB' & _); [lia|]. exists j'. exact HB'.
        + destruct (l_row s pos HF Hpos Hn) as (l & G1).
          apply (post_lift _ l); [exact G1|]. eapply post_user; [apply SB'| |exact EE]. intros w3 idx Hidx. cbv beta in Hidx.
          destruct (l_bnd s pos idx l HF G1) as (j' & HB' & _); [lia|]. split; [reflexivity|]. exists j'. exact HB'.
      - apply (post_lift _ le); [exact Ge1|]. split; [reflexivity|].
        destruct (l_bnd s _ (length le) le HF Ge1) as (j' & HB' & _); [lia|]. exists j'. exact HB'. }
    intros [xp xi] [w2 s2] [Hs (j' & HB')]. cbn [fst snd] in *. subst s2.
    unfold post, own, zoom, liftr. cbn [fst snd]. rewrite (islice_pairs_ok _ _ _ _ _ _ _ reverse HB HB').
    split; [reflexivity|]. apply (slicen_stretch (contents s) j j' reverse).
  Qed.
End ListEff.
