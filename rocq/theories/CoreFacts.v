(** * Positional access: _pos, _loc, indexing, slicing, islice (proofs) *)
From Verif Require Import PyBase BaseFacts Spec SliceFacts Model IndexFacts.
Local Unset Implicit Arguments.

Lemma bind_ok {S A B} (m : M S A) (k : A -> M S B) s a s' :
  m s = (Ok a, s') -> bind m k s = k a s'.
Proof. intros H. unfold bind. rewrite H. reflexivity. Qed.
Lemma bind_err {S A B} (m : M S A) (k : A -> M S B) s e s' :
  m s = (Err e, s') -> bind m k s = (Err e, s').
Proof. intros H. unfold bind. rewrite H. reflexivity. Qed.
Lemma liftr_ok {S A} (r : res A) (s : S) a : r = Ok a -> liftr r s = (Ok a, s).
Proof. intros ->. reflexivity. Qed.
Lemma bind_get {S B} (k : S -> M S B) s : bind get k s = k s s.
Proof. reflexivity. Qed.
Lemma bind_lift {S A B} (r : res A) (k : A -> M S B) s a : r = Ok a -> bind (liftr r) k s = k a s.
Proof. intros ->. reflexivity. Qed.
Lemma bind_ret {S A B} (k : A -> M S B) s a : bind (ret a) k s = k a s.
Proof. reflexivity. Qed.

Section CoreFacts.
  Context {V K : Type}.
  Implicit Types c : core V K.

  Definition clens c : list nat := map (@length V) (lists c).

  (** What positional access relies on. *)
  Record CoreOK c : Prop := {
    co_ne : Forall (fun l => l <> []) (lists c);
    co_len : len c = length (contents c);
    co_ix : IndexOK (clens c) (index c) (offset c) }.

  (** [c'] is [c] up to the (lazily built) index. *)
  Definition touch c c' : Prop :=
    exists ix off, c' = set_offset off (set_index ix c) /\ IndexOK (clens c) ix off.

  Lemma touch_refl c : CoreOK c -> touch c c.
  Proof. intros H. exists (index c), (offset c). split; [destruct c; reflexivity|apply (co_ix _ H)]. Qed.
  Lemma touch_trans c1 c2 c3 : touch c1 c2 -> touch c2 c3 -> touch c1 c3.
  Proof.
    intros (ix & off & -> & H1) (ix' & off' & -> & H2). exists ix', off'. split; [reflexivity|exact H2].
  Qed.
  Lemma touch_lists c c' : touch c c' -> lists c' = lists c.
  Proof. intros (ix & off & -> & _). reflexivity. Qed.
  Lemma touch_contents c c' : touch c c' -> contents c' = contents c.
  Proof. intros (ix & off & -> & _). reflexivity. Qed.
  Lemma touch_len c c' : touch c c' -> len c' = len c.
  Proof. intros (ix & off & -> & _). reflexivity. Qed.
  Lemma touch_load c c' : touch c c' -> load c' = load c.
  Proof. intros (ix & off & -> & _). reflexivity. Qed.
  Lemma touch_maxes c c' : touch c c' -> maxes c' = maxes c.
  Proof. intros (ix & off & -> & _). reflexivity. Qed.
  Lemma touch_ok c c' : touch c c' -> CoreOK c -> CoreOK c'.
  Proof. intros (ix & off & -> & H) [H1 H2 _]. constructor; assumption. Qed.

  Lemma psum_lens c X l Y : lists c = X ++ l :: Y -> psum (clens c) (length X) = length (concat X).
  Proof.
    intros E. unfold clens. rewrite E, map_app, <- (map_length (@length V) X), psum_app_len.
    symmetry. apply length_concat.
  Qed.

  Lemma ensure_index_ok c : CoreOK c -> 2 <= length (lists c) ->
    exists c', ensure_index c = (Ok tt, c') /\ touch c c' /\ IndexFor (clens c) (index c') (offset c').
  Proof.
    intros H H2. unfold ensure_index, bind, get. destruct (is_nil (index c)) eqn:E.
    - apply is_nil_spec in E. destruct (build_index_ok c H2 E) as (ix & off & Hb & HI).
      rewrite Hb. eexists. split; [reflexivity|]. split; [|exact HI].
      exists ix, off. split; [reflexivity|right; exact HI].
    - exists c. split; [reflexivity|]. split; [apply touch_refl; exact H|].
      destruct (co_ix _ H) as [E'|HI]; [rewrite E' in E; discriminate|exact HI].
  Qed.

  Lemma loc_ok c p i j : CoreOK c -> Bnd (lists c) p i j ->
    exists c', loc p i c = (Ok j, c') /\ touch c c'.
  Proof.
    intros H (X & l & Y & E & Hp & Hi & Hj). unfold loc.
    destruct (Nat.eqb_spec p 0) as [Hp0|Hp0].
    - exists c. destruct X; [|cbn in Hp; lia]. cbn in Hj. subst. split; [reflexivity|].
      apply touch_refl. exact H.
    - assert (H2 : 2 <= length (lists c)) by (rewrite E, app_length; cbn; lia).
      destruct (ensure_index_ok c H H2) as (c' & He & Ht & HI).
      unfold bind, get, liftr, ret. rewrite He.
      destruct HI as (D & HD & Hoff & Hn & _ & Hlen & HT).
      assert (Hpl : p < length (clens c)) by (unfold clens; rewrite map_length, E, app_length; cbn; lia).
      rewrite Hoff. rewrite (Nat.add_comm p (2 ^ D - 1)).
      pose proof (pow2_gt D).
      rewrite (loc_loop_ok D (index c') (clens c) HT D 0 _ p 0); try lia.
      exists c'. split; [|exact Ht]. f_equal. f_equal. cbn [Nat.pow]. rewrite Nat.mul_1_r.
      subst p. rewrite (psum_lens _ _ _ _ E). lia.
  Qed.

  Lemma locate_psum c p i j : p < length (lists c) -> i < nth p (clens c) 0 ->
    j = psum (clens c) p + i -> Locate (lists c) p i j.
  Proof.
    intros Hp Hi Hj. destruct (split_at _ _ Hp) as (X & l & Y & E & HX).
    exists X, l, Y. split; [exact E|]. split; [exact HX|].
    subst p. rewrite (psum_lens _ _ _ _ E) in Hj. split; [|exact Hj].
    unfold clens in Hi. rewrite E, map_app in Hi. cbn in Hi.
    rewrite app_nth2 in Hi by (rewrite map_length; lia).
    rewrite map_length, Nat.sub_diag in Hi. exact Hi.
  Qed.

  Lemma total_sum c : list_sum (clens c) = length (contents c).
  Proof. symmetry. apply length_concat. Qed.

  Lemma pos_nonneg_ok c j : CoreOK c -> j < len c ->
    exists p i c', pos_nonneg j c = (Ok (p, i), c') /\ touch c c' /\ Locate (lists c) p i j.
  Proof.
    intros H Hj. rewrite (co_len _ H) in Hj. unfold pos_nonneg, bind, get, liftr, ret.
    destruct (lists c) as [|l0 L] eqn:EL; [unfold contents in Hj; rewrite EL in Hj; cbn in Hj; lia|].
    cbn [getn nth_error].
    destruct (Nat.ltb_spec j (length l0)) as [Hlt|Hge].
    - exists 0, j, c. split; [reflexivity|]. split; [apply touch_refl; exact H|].
      exists [], l0, L. cbn. auto.
    - assert (H2 : 2 <= length (lists c)).
      { rewrite EL. destruct L; [|cbn; lia]. unfold contents in Hj. rewrite EL in Hj. cbn in Hj.
        rewrite app_nil_r in Hj. lia. }
      unfold pos_tree, bind, get, liftr, ret.
      destruct (ensure_index_ok c H H2) as (c' & He & Ht & HI). rewrite He.
      destruct HI as (D & HD & Hoff & Hn & _ & Hlen & HT).
      pose proof (pow2_gt D) as HDg.
      assert (Hroot : j < nd (index c') (2 ^ 0 - 1 + 0)).
      { assert (Hns := node_sum D _ _ HT D 0 0 ltac:(lia) ltac:(cbn; lia)).
        rewrite Nat.mul_0_l, psum_0, Nat.add_0_r in Hns.
        replace ((0 + 1) * 2 ^ D) with (2 ^ D) in Hns by lia. rewrite Hns.
        rewrite psum_all by exact Hn. rewrite total_sum. exact Hj. }
      rewrite Hoff in Hlen.
      destruct (pos_loop_ok D (index c') (clens c) HT Hn Hlen D (S (length (index c'))) 0 0 j)
        as (p & i & Hpl & Hp & Hi & Hs); [lia|cbn; lia|lia|exact Hroot|].
      cbn [Nat.pow Nat.sub Nat.add Nat.mul] in Hpl. rewrite Hpl. cbn [fst snd].
      unfold subc. rewrite Hoff. destruct (Nat.leb_spec (2 ^ D - 1) (2 ^ D - 1 + p)); [|lia].
      replace (2 ^ D - 1 + p - (2 ^ D - 1)) with p by lia.
      exists p, i, c'. split; [reflexivity|]. split; [exact Ht|].
      rewrite <- EL. unfold clens in Hp. rewrite map_length in Hp.
      apply locate_psum; [exact Hp|exact Hi|]. rewrite psum_0 in Hs. lia.
  Qed.

  (** The position denoted by a possibly negative index. *)
  Definition norm (n : nat) (i : Z) : Z := (if i <? 0 then i + Z.of_nat n else i)%Z.

  Lemma pos_of_ok c i : CoreOK c -> (0 <= norm (len c) i < Z.of_nat (len c))%Z ->
    exists p k c', pos_of i c = (Ok (p, k), c') /\ touch c c' /\
      Locate (lists c) p k (Z.to_nat (norm (len c) i)).
  Proof.
    intros H Hi. unfold pos_of, norm in *. unfold bind, get, liftr, ret.
    destruct (Z.ltb_spec i 0) as [Hneg|Hpos].
    - assert (Hne : lists c <> []).
      { intros E. pose proof (co_len _ H) as Hl. unfold contents in Hl. rewrite E in Hl. cbn in Hl. lia. }
      destruct (exists_last Hne) as (X & l & E). rewrite E, getlast_snoc.
      destruct (Z.leb_spec (- i) (Z.of_nat (length l))) as [Hle|Hgt].
      + eexists _, _, c. split; [reflexivity|]. split; [apply touch_refl; exact H|].
        exists X, l, []. split; [reflexivity|]. split; [rewrite app_length; cbn; lia|].
        split; [lia|]. pose proof (co_len _ H) as Hl. unfold contents in Hl.
        rewrite E, concat_app in Hl. cbn in Hl. rewrite app_nil_r, app_length in Hl. lia.
      + destruct (Z.ltb_spec (i + Z.of_nat (len c)) 0); [lia|].
        rewrite <- E. apply pos_nonneg_ok; [exact H|lia].
    - destruct (Z.leb_spec (Z.of_nat (len c)) i); [lia|]. apply pos_nonneg_ok; [exact H|lia].
  Qed.

  Lemma pos_of_err c i : CoreOK c -> ~ (0 <= norm (len c) i < Z.of_nat (len c))%Z ->
    pos_of i c = (Err IndexError, c).
  Proof.
    intros H Hi. unfold pos_of, norm in *. unfold bind, get, liftr, ret, raise.
    destruct (Z.ltb_spec i 0) as [Hneg|Hpos].
    - destruct (lists c) as [|l0 L] eqn:EL; [reflexivity|].
      destruct (exists_last (l := l0 :: L)) as (X & l & E); [discriminate|].
      rewrite E, getlast_snoc.
      assert (Hle : length l <= len c).
      { pose proof (co_len _ H) as Hl. unfold contents in Hl.
        rewrite EL, E, concat_app in Hl. cbn in Hl. rewrite app_nil_r, app_length in Hl. lia. }
      destruct (Z.leb_spec (- i) (Z.of_nat (length l))); [lia|].
      destruct (Z.ltb_spec (i + Z.of_nat (len c)) 0); [reflexivity|lia].
    - destruct (Z.leb_spec (Z.of_nat (len c)) i); [reflexivity|lia].
  Qed.

  Lemma getz_norm (l : list V) i : (0 <= norm (length l) i < Z.of_nat (length l))%Z ->
    getz l i = getn l (Z.to_nat (norm (length l) i)).
  Proof.
    intros H. unfold getz, norm in *.
    set (j := (if i <? 0 then _ else _)%Z) in *.
    destruct (Z.ltb_spec j 0); [lia|reflexivity].
  Qed.
  Lemma getz_norm_err (l : list V) i : ~ (0 <= norm (length l) i < Z.of_nat (length l))%Z ->
    getz l i = Err IndexError.
  Proof.
    intros H. unfold getz, norm in *. set (j := (if i <? 0 then _ else _)%Z) in *.
    destruct (Z.ltb_spec j 0); [reflexivity|]. apply getn_out. lia.
  Qed.

  Lemma getn_concat_first (l0 : list V) L i : i < length l0 -> getn l0 i = getn (concat (l0 :: L)) i.
  Proof. intros H. unfold getn. cbn. rewrite nth_error_app1 by lia. reflexivity. Qed.
  Lemma getn_concat_last X (l : list V) i :
    getn l i = getn (concat (X ++ [l])) (length (concat X) + i).
  Proof.
    unfold getn. rewrite concat_app. cbn. rewrite app_nil_r, nth_error_app2 by lia.
    replace (length (concat X) + i - length (concat X)) with i by lia. reflexivity.
  Qed.

  Lemma getitem_int_ok c i : CoreOK c ->
    exists c', getitem_int i c = (getz (contents c) i, c') /\ touch c c'.
  Proof.
    intros H. pose proof (co_len _ H) as Hl. unfold getitem_int. unfold bind, get, liftr, raise.
    destruct (Nat.eqb_spec (len c) 0) as [Hz|Hnz].
    { exists c. split; [|apply touch_refl; exact H]. rewrite getz_norm_err; [reflexivity|].
      unfold norm. rewrite <- Hl, Hz. destruct (Z.ltb_spec i 0); lia. }
    destruct (lists c) as [|l0 L] eqn:EL; [unfold contents in Hl; rewrite EL in Hl; cbn in Hl; lia|].
    assert (Hne : Forall (fun l => l <> []) (l0 :: L)) by (rewrite <- EL; apply (co_ne _ H)).
    assert (Hl0 : 0 < length l0).
    { inversion Hne as [|? ? Hl0 _]; subst. destruct l0; [congruence|cbn; lia]. }
    cbn [getn nth_error].
    assert (Hcont : contents c = concat (l0 :: L)) by (unfold contents; rewrite EL; reflexivity).
    destruct (exists_last (l := l0 :: L)) as (X & ll & E); [discriminate|].
    assert (Hll : 0 < length ll).
    { rewrite E in Hne. rewrite Forall_app in Hne. destruct Hne as [_ Hne].
      inversion Hne as [|? ? Hll _]; subst. destruct ll; [congruence|cbn; lia]. }
    assert (Hlen : len c = length (concat X) + length ll).
    { rewrite Hl, Hcont, E, concat_app. cbn. rewrite app_nil_r, app_length. reflexivity. }
    destruct (Z.eqb_spec i 0) as [->|Hi0].
    { exists c. split; [|apply touch_refl; exact H]. f_equal. rewrite Hcont.
      rewrite (getz_nonneg _ 0) by lia. apply getn_concat_first. exact Hl0. }
    destruct (Z.eqb_spec i (-1)) as [->|Hi1].
    { exists c. split; [|apply touch_refl; exact H]. rewrite E, getlast_snoc. f_equal. rewrite Hcont, E.
      rewrite concat_app. cbn. rewrite app_nil_r. change (getz ?x (-1)) with (getlast x).
      rewrite getlast_app; [reflexivity|]. destruct ll; [cbn in Hll; lia|discriminate]. }
    destruct ((0 <=? i) && (i <? Z.of_nat (length l0)))%Z eqn:Hfirst.
    { apply andb_true_iff in Hfirst as [H1 H2]. apply Z.leb_le in H1. apply Z.ltb_lt in H2.
      exists c. split; [|apply touch_refl; exact H]. f_equal. rewrite Hcont.
      rewrite !getz_nonneg by lia. apply getn_concat_first. lia. }
    rewrite E, getlast_snoc.
    destruct ((- Z.of_nat (length ll) <? i) && (i <? 0))%Z eqn:Hlast.
    { apply andb_true_iff in Hlast as [H1 H2]. apply Z.ltb_lt in H1, H2.
      exists c. split; [|apply touch_refl; exact H]. f_equal. rewrite Hcont, E.
      rewrite getz_nonneg by lia. rewrite getz_neg by lia.
      rewrite concat_app, app_length. cbn [concat]. rewrite app_nil_r.
      destruct (Z.ltb_spec (i + Z.of_nat (length (concat X) + length ll)) 0); [lia|].
      rewrite (getn_concat_last X ll), concat_app. cbn [concat]. rewrite app_nil_r. f_equal. lia. }
    destruct (Z_lt_dec (norm (len c) i) 0) as [Hlo|Hlo].
    { rewrite pos_of_err by (auto; lia). exists c. split; [|apply touch_refl; exact H].
      f_equal. symmetry. apply getz_norm_err. rewrite <- Hl. lia. }
    destruct (Z_lt_dec (norm (len c) i) (Z.of_nat (len c))) as [Hhi|Hhi].
    - destruct (pos_of_ok c i H ltac:(lia)) as (p & k & c' & Hp & Ht & HL). rewrite Hp. cbn [fst snd].
      rewrite EL, E in HL. destruct (locate_get _ _ _ _ HL) as (l & Hgl & Hgi & Hi & Hj). rewrite Hgl.
      exists c'. split; [|exact Ht]. rewrite Hgi. f_equal. rewrite Hcont, E.
      rewrite getz_norm; rewrite <- E, <- Hcont, <- Hl; [|lia]. rewrite Hcont, E. reflexivity.
    - rewrite pos_of_err by (auto; lia). exists c. split; [|apply touch_refl; exact H].
      f_equal. symmetry. apply getz_norm_err. rewrite <- Hl. lia.
  Qed.

  Lemma mapM_getitem_ok idxs : forall c, CoreOK c ->
    exists c', mapM getitem_int idxs c = (mapR (getz (contents c)) idxs, c') /\ touch c c'.
  Proof.
    induction idxs as [|i idxs IH]; intros c H; cbn [mapM mapR].
    - exists c. split; [reflexivity|apply touch_refl; exact H].
    - unfold bind, ret. destruct (getitem_int_ok c i H) as (c1 & H1 & T1). rewrite H1.
      destruct (getz (contents c) i) as [x|e]; cbn [rbind]; [|exists c1; split; [reflexivity|exact T1]].
      destruct (IH c1 (touch_ok _ _ T1 H)) as (c2 & H2 & T2). rewrite H2, (touch_contents _ _ T1).
      assert (T : touch c c2) by (eapply touch_trans; eauto).
      destruct (mapR (getz (contents c)) idxs); cbn [rbind]; exists c2; split; auto.
  Qed.

  (** Where a slice that stops at [stop] ends. *)
  Lemma stop_bnd c stop : CoreOK c -> (0 < stop <= Z.of_nat (len c))%Z ->
    exists q i c', (if (stop =? Z.of_nat (len c))%Z then
                ll <- liftr (getlast (lists c)) ;;
                ret (length (lists c) - 1, length ll)
              else pos_of stop) c = (Ok (q, i), c') /\ touch c c' /\ Bnd (lists c) q i (Z.to_nat stop).
  Proof.
    intros H Hs. destruct (Z.eqb_spec stop (Z.of_nat (len c))) as [->|Hne].
    - assert (Hnn : lists c <> []).
      { intros E. pose proof (co_len _ H) as Hl. unfold contents in Hl. rewrite E in Hl. cbn in Hl. lia. }
      destruct (exists_last Hnn) as (X & l & E). unfold bind, liftr, ret.
      rewrite E, getlast_snoc. eexists _, _, c. split; [reflexivity|].
      split; [apply touch_refl; exact H|]. exists X, l, [].
      split; [reflexivity|]. split; [rewrite app_length; cbn; lia|]. split; [lia|].
      rewrite (co_len _ H). unfold contents. rewrite E, concat_app. cbn. rewrite app_nil_r, app_length. lia.
    - destruct (pos_of_ok c stop H) as (p & k & c' & Hp & Ht & HL).
      + unfold norm. destruct (Z.ltb_spec stop 0); lia.
      + exists p, k, c'. split; [exact Hp|]. split; [exact Ht|].
        apply locate_bnd. unfold norm in HL. destruct (Z.ltb_spec stop 0); [lia|exact HL].
  Qed.

  Lemma getitem_fwd_ok c start stop : CoreOK c ->
    (0 <= start < stop)%Z -> (stop <= Z.of_nat (len c))%Z ->
    exists c', getitem_fwd start stop c
               = (Ok (slicen (contents c) (Z.to_nat start) (Z.to_nat stop)), c') /\ touch c c'.
  Proof.
    intros H Hs Hst. unfold getitem_fwd. rewrite bind_get.
    destruct ((start =? 0) && (stop =? Z.of_nat (len c)))%Z eqn:Eall.
    { apply andb_true_iff in Eall as [H1 H2]. apply Z.eqb_eq in H1, H2. subst.
      exists c. split; [|apply touch_refl; exact H]. rewrite Nat2Z.id, (co_len _ H).
      change (Z.to_nat 0) with 0. rewrite slicen_all. reflexivity. }
    destruct (pos_of_ok c start H) as (p & i & c1 & Hp & T1 & HL).
    { unfold norm. destruct (Z.ltb_spec start 0); lia. }
    unfold norm in HL. destruct (Z.ltb_spec start 0); [lia|].
    rewrite (bind_ok _ _ _ _ _ Hp). cbn [fst snd]. destruct HL as (X & l & Y & E & HX & Hi & Hj).
    assert (Hgl : getn (lists c) p = Ok l) by (rewrite E; apply getn_app'; auto).
    rewrite (bind_lift _ _ _ _ Hgl).
    destruct (Nat.leb_spec (i + Z.to_nat (stop - start)) (length l)) as [Hin|Hout].
    - exists c1. split; [|exact T1]. unfold ret. f_equal. f_equal. unfold contents. rewrite E.
      replace (Z.to_nat stop) with (length (concat X) + (i + Z.to_nat (stop - start))) by lia.
      rewrite Hj, slicen_concat_same by exact Hin. reflexivity.
    - assert (H1 := touch_ok _ _ T1 H).
      destruct (stop_bnd c1 stop H1) as (q & k & c2 & Hq & T2 & HB).
      { rewrite (touch_len _ _ T1). lia. }
      rewrite (touch_len _ _ T1), (touch_lists _ _ T1) in Hq. rewrite (touch_lists _ _ T1) in HB.
      rewrite getlast_getn in Hq by (rewrite E; destruct X; discriminate).
      apply (touch_trans _ _ _ T1) in T2.
      cbv zeta. rewrite (bind_ok _ _ _ _ _ Hq). rewrite (bind_lift _ _ _ _ Hgl). cbn [fst snd].
      destruct HB as (X' & l' & Y' & E' & HX' & Hk & Hj').
      assert (Hlt : length X < length X').
      { destruct (Nat.lt_trichotomy (length X) (length X')) as [Hlt|[Heq|Hgt]]; [exact Hlt| |].
        - rewrite E in E'. destruct (split_same _ _ _ _ _ _ E' Heq) as (-> & -> & ->). lia.
        - rewrite E in E'. symmetry in E'. destruct (split_order _ _ _ _ _ _ E' Hgt) as (Mid & -> & ->).
          rewrite concat_app in Hj. cbn in Hj. rewrite !app_length in Hj. lia. }
      assert (Hg' : getn (lists c) q = Ok l') by (rewrite E'; apply getn_app'; auto).
      rewrite (bind_lift _ _ _ _ Hg'). exists c2. split; [|exact T2]. unfold ret. f_equal. f_equal.
      rewrite E in E'. destruct (split_order _ _ _ _ _ _ E' Hlt) as (Mid & -> & ->).
      unfold contents. rewrite E. rewrite Hj, Hj', slicen_concat_mid by lia.
      rewrite <- app_assoc. f_equal. f_equal. f_equal.
      replace (X ++ l :: Mid ++ l' :: Y') with ((X ++ [l]) ++ Mid ++ (l' :: Y')) by (rewrite <- app_assoc; reflexivity).
      apply slicen_mid; rewrite !app_length in *; cbn in *; lia.
  Qed.

  (** ** Slices *)
  Lemma getitem_slice_ok c sl : CoreOK c ->
    exists c', getitem_slice sl c = (sp_slice sl (contents c), c') /\ touch c c'.
  Proof.
    intros H. unfold getitem_slice, sp_slice. rewrite <- (co_len _ H).
    pose proof (co_len _ H) as Hl.
    cbn [getitem_slice_rec]. unfold bind at 1, get at 1. unfold bind at 1, liftr at 1.
    destruct (slice_indices sl (len c)) as [[[start stop] step]|e] eqn:Es; cbn [rbind];
      [|exists c; split; [reflexivity|apply touch_refl; exact H]].
    destruct (slice_indices_Ok _ _ _ _ _ Es) as (Hs0 & Hpos & Hneg).
    destruct ((step =? 1) && (start <? stop))%Z eqn:E1.
    { apply andb_true_iff in E1 as [Ea Eb]. apply Z.eqb_eq in Ea. apply Z.ltb_lt in Eb. subst step.
      specialize (Hpos ltac:(lia)).
      destruct (getitem_fwd_ok c start stop H ltac:(lia) ltac:(lia)) as (c' & Hf & Ht).
      exists c'. split; [|exact Ht]. rewrite Hf, mapR_getz_rangez by lia. reflexivity. }
    destruct ((step =? -1) && (stop <? start))%Z eqn:E2.
    { apply andb_true_iff in E2 as [Ea Eb]. apply Z.eqb_eq in Ea. apply Z.ltb_lt in Eb. subst step.
      specialize (Hneg ltac:(lia)).
      unfold bind at 1 2. unfold get at 1. unfold bind at 1, liftr at 1.
      rewrite slice_indices_plain by lia.
      replace ((1 =? 1) && (stop + 1 <? start + 1))%Z with true
        by (symmetry; apply andb_true_iff; split; [reflexivity|apply Z.ltb_lt; lia]).
      destruct (getitem_fwd_ok c (stop + 1) (start + 1) H ltac:(lia) ltac:(lia)) as (c' & Hf & Ht).
      exists c'. split; [|exact Ht]. rewrite Hf. unfold ret.
      rewrite mapR_getz_rangez_rev by lia. reflexivity. }
    apply mapM_getitem_ok. exact H.
  Qed.

  (** ** [_islice] and [islice] *)
  Lemma islice_pairs_ok (ls : list (list V)) p i j p' i' j' reverse :
    Bnd ls p i j -> Bnd ls p' i' j' ->
    islice_pairs ls p i p' i' reverse =
    Ok (if reverse then rev (slicen (concat ls) j j') else slicen (concat ls) j j').
  Proof.
    intros (X & l & Y & E & HX & Hi & Hj) (X' & l' & Y' & E' & HX' & Hi' & Hj').
    unfold islice_pairs. destruct (Nat.ltb_spec p' p) as [Hgt|Hle].
    { rewrite E in E'. symmetry in E'.
      destruct (split_order _ _ _ _ _ _ E' ltac:(lia)) as (Mid & EX & EY).
      rewrite slicen_nil; [destruct reverse; reflexivity|].
      subst X. rewrite concat_app in Hj. cbn in Hj. rewrite !app_length in Hj. lia. }
    destruct (Nat.eqb_spec p p') as [Heq|Hne].
    { rewrite E in E'. destruct (split_same _ _ _ _ _ _ E' ltac:(lia)) as (-> & -> & ->).
      rewrite E, getn_app' by auto. cbn [rbind].
      rewrite Hj, Hj', slicen_concat_same by lia.
      destruct reverse; [apply mapR_rev|]; apply mapR_getn_rangen; lia. }
    assert (Hlt : length X < length X') by lia.
    pose proof E' as E''. rewrite E in E'. destruct (split_order _ _ _ _ _ _ E' Hlt) as (Mid & EX & EY).
    rewrite E at 1. rewrite getn_app' by auto. cbn [rbind].
    rewrite E'' at 1. rewrite getn_app' by auto. cbn [rbind].
    assert (Hs : slicen (concat ls) j j' = skipn i l ++ concat Mid ++ firstn i' l').
    { subst. apply slicen_concat_mid; lia. }
    assert (Ha : slicen l i (length l) = skipn i l).
    { unfold slicen. rewrite firstn_all2; [reflexivity|]. rewrite skipn_length. lia. }
    assert (Hb : slicen l' 0 i' = firstn i' l').
    { unfold slicen. cbn. rewrite Nat.sub_0_r. reflexivity. }
    assert (Hmid : mapR (getn ls) (rangen (p + 1) p') = Ok Mid).
    { rewrite mapR_getn_rangen by (rewrite E'', app_length; cbn; lia). f_equal.
      subst X' Y. rewrite E.
      replace (X ++ l :: Mid ++ l' :: Y') with ((X ++ [l]) ++ Mid ++ (l' :: Y')) by (rewrite <- app_assoc; reflexivity).
      apply slicen_mid; rewrite !app_length in *; cbn in *; lia. }
    assert (Hma := mapR_getn_rangen l i (length l) ltac:(lia)). rewrite Ha in Hma.
    assert (Hmb := mapR_getn_rangen l' 0 i' ltac:(lia)). rewrite Hb in Hmb.
    destruct (Nat.eqb_spec (p + 1) p') as [Hnext|Hfar].
    - assert (EM : Mid = []).
      { destruct Mid; [reflexivity|]. subst X'. rewrite app_length in HX'. cbn in HX'. lia. }
      subst Mid. cbn [concat app] in Hs. destruct reverse.
      + rewrite (mapR_rev _ _ _ Hma), (mapR_rev _ _ _ Hmb). cbn [rbind].
        rewrite Hs, rev_app_distr. reflexivity.
      + rewrite Hma, Hmb. cbn [rbind]. rewrite Hs. reflexivity.
    - destruct reverse.
      + rewrite (mapR_rev _ _ _ Hmid), (mapR_rev _ _ _ Hma), (mapR_rev _ _ _ Hmb). cbn [rbind].
        rewrite Hs, !rev_app_distr, rev_concat, <- app_assoc. reflexivity.
      + rewrite Hmid, Hma, Hmb. cbn [rbind]. rewrite Hs. reflexivity.
  Qed.

  Lemma islice_ok c a b reverse : CoreOK c ->
    exists r c', islice a b reverse c = (Ok (if reverse then rev r else r), c') /\ touch c c' /\
                 sp_slice (mkslice a b None) (contents c) = Ok r.
  Proof.
    intros H. pose proof (co_len _ H) as Hl. unfold islice, sp_slice. rewrite <- Hl.
    destruct (slice_indices_None a b (len c)) as (start & stop & Es).
    destruct (slice_indices_Ok _ _ _ _ _ Es) as (_ & Hpos & _). specialize (Hpos ltac:(lia)).
    rewrite Es. cbn [rbind]. unfold bind at 1, get.
    rewrite mapR_getz_rangez by lia.
    destruct (Nat.eqb_spec (len c) 0) as [Hz|Hnz].
    { eexists [], c. split; [destruct reverse; reflexivity|]. split; [apply touch_refl; exact H|].
      rewrite slicen_nil by lia. reflexivity. }
    unfold bind at 1, liftr at 1. rewrite Es.
    destruct (Z.leb_spec stop start) as [Hle|Hgt].
    { eexists [], c. split; [destruct reverse; reflexivity|]. split; [apply touch_refl; exact H|].
      rewrite slicen_nil by lia. reflexivity. }
    destruct (pos_of_ok c start H) as (p & i & c1 & Hp & T1 & HL).
    { unfold norm. destruct (Z.ltb_spec start 0); lia. }
    unfold norm in HL. destruct (Z.ltb_spec start 0); [lia|].
    unfold bind at 1. rewrite Hp.
    assert (H1 := touch_ok _ _ T1 H).
    destruct (stop_bnd c1 stop H1) as (q & k & c2 & Hq & T2 & HB).
    { rewrite (touch_len _ _ T1). lia. }
    rewrite (touch_len _ _ T1), (touch_lists _ _ T1) in Hq. rewrite (touch_lists _ _ T1) in HB.
    unfold bind at 1. rewrite Hq. unfold liftr. cbn [fst snd].
    rewrite (islice_pairs_ok _ _ _ _ _ _ _ reverse (locate_bnd _ _ _ _ HL) HB).
    eexists _, c2. split; [reflexivity|]. split; [eapply touch_trans; eauto|reflexivity].
  Qed.

  Lemma reversed_ok c : reversed c = (Ok (rev (contents c)), c).
  Proof. unfold reversed, bind, get, ret. rewrite rev_concat. reflexivity. Qed.
End CoreFacts.
