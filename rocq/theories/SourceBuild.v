(** * [_build_index] as the text has it (proofs) *)
From Coq Require Import String.
From Verif Require Import PyBase BaseFacts Model SourceSyntax SourceText SourceSem SourceRep SourceFacts SourceLoops.
Local Open Scope string_scope.
Local Open Scope nat_scope.
Local Open Scope list_scope.
Local Unset Implicit Arguments.

Ltac hp := repeat first [rewrite on_same | rewrite on_other by lia].

(** Nothing below address [k] has changed but [r]. *)
Definition kept {V} (k : nat) (s s' : st V) : Prop :=
  k <= next s' /\ attrs s' = attrs s /\ forall q, q < k -> heap s' q = heap s q.

Section Build.
  Context {V : Type} (lt eq : V -> V -> res bool) (iv : string -> list (val V) -> M (st V) (val V)).
  Notation exec := (exec lt eq iv).
  Notation eval := (eval lt eq iv).

  Lemma mapM_pure {S A B} (f : A -> M S B) (g : A -> B) s : forall l, (forall a, In a l -> f a s = (Ok (g a), s)) ->
    mapM f l s = (Ok (map g l), s).
  Proof.
    induction l as [|a l IH]; intros H; [reflexivity|]. cbn [mapM map]. unfold bind at 1. rewrite (H a) by (left; reflexivity).
    unfold bind. rewrite IH by (intros b Hb; apply H; right; exact Hb). reflexivity.
  Qed.

  Lemma lens_eq ids (ls : list (list V)) (s : st V) : map (heap s) ids = map (map VElt) ls ->
    mapM (fun x => prim "len" [x]) (map VList ids) s = (Ok (map vnat (map (@length V) ls)), s).
  Proof.
    intros H.
    rewrite (mapM_pure _ (fun x => match x with VList r => vnat (length (heap s r)) | _ => VNone end)).
    - f_equal. f_equal. rewrite map_map. transitivity (map (fun l : list (val V) => @vnat V (length l)) (map (heap s) ids)).
      + rewrite map_map. reflexivity.
      + rewrite H, !map_map. apply map_ext. intros l. rewrite map_length. reflexivity.
    - intros x Hx. apply in_map_iff in Hx. destruct Hx as (r & <- & _). reflexivity.
  Qed.

  Fixpoint pairs (l : list nat) : list (val V) :=
    match l with a :: b :: t => VTup [vnat a; vnat b] :: pairs t | _ => [] end.

  Lemma zip_same r : forall n row s, length row < n -> heap s r = map vnat row ->
    wp (zip_loop n r r) s (fun x s' => x = Ok (pairs row) /\ next s' = next s /\ attrs s' = attrs s /\
                                        forall q, q <> r -> heap s' q = heap s q).
  Proof.
    induction n as [|n IH]; intros row s Hl Hr; [lia|]. cbn [zip_loop]. unfold next_of. run. rewrite Hr.
    destruct row as [|a [|b t]]; cbn [map]; run.
    - cbn [pairs]. auto.
    - rewrite on_same. run. cbn. repeat split; auto. intros q Hq. apply on_other, Hq.
    - rewrite on_same. run.
      eapply wp_mono; [apply (IH t)|].
      + cbn in Hl. lia.
      + cbn [heap]. apply on_same.
      + cbv beta. intros x s' (-> & H1 & H2 & H3). run. cbn [pairs]. repeat split; auto.
        intros q Hq. rewrite H3 by exact Hq. cbn [heap]. rewrite !on_other by exact Hq. reflexivity.
  Qed.

  Lemma pairs_add (s : st V) : forall n row, length row <= n ->
    mapM (fun x => t <- tup_of x ;; prim "add" t) (pairs row) s = (Ok (map vnat (pair_sums row)), s).
  Proof.
    induction n as [|n IH]; intros row H.
    - destruct row; [reflexivity|cbn in H; lia].
    - destruct row as [|a [|b t]]; try reflexivity. cbn in H.
      change (pairs (a :: b :: t)) with (VTup [vnat a; vnat b] :: pairs t).
      change (map vnat (pair_sums (a :: b :: t))) with (@vnat V (a + b) :: map vnat (pair_sums t)).
      cbn [mapM]. unfold bind at 1.
      replace ((t0 <- tup_of (VTup [vnat a; vnat b]);; prim "add" t0) s) with (Ok (@vnat V (a + b)), s).
      2:{ unfold vnat at 1. rewrite Nat2Z.inj_add. reflexivity. }
      unfold bind at 1. rewrite IH by lia. reflexivity.
  Qed.

  Definition pair_expr : expr :=
    ECall (EName "list") [ECall (EName "starmap") [EName "add"; ECall (EName "zip") [EName "head"; EName "tail"]]].

  Lemma pair_row en r row s : find "head" en = Some (VIter r) -> find "tail" en = Some (VIter r) ->
    find "list" en = None -> find "starmap" en = None -> find "add" en = None -> find "zip" en = None ->
    heap s r = map vnat row -> r < next s ->
    wp (eval pair_expr en) s (fun x s' => exists rr, x = Ok (VList rr) /\ next s <= rr < next s' /\
         heap s' rr = map vnat (pair_sums row) /\ attrs s' = attrs s /\
         forall q, q <> r -> q < next s -> heap s' q = heap s q).
  Proof.
    intros F1 F2 F3 F4 F5 F6 Hr Hlt. unfold pair_expr. run. rewrite F3. run. rewrite F4. run. rewrite F5. run.
    rewrite F6. run. rewrite F1. run. rewrite F2. run. rewrite Hr, map_length.
    eapply wp_mono; [apply (zip_same r _ row); [lia|exact Hr]|]. cbv beta. intros x s1 (-> & H1 & H2 & H3). run.
    rewrite on_same. eapply wp_eq; [apply (pairs_add _ (length row)); lia|]. run. rewrite on_same. run.
    exists (S (S (next s1))). split; [reflexivity|]. split; [cbn; lia|]. split; [cbn; apply on_same|].
    split; [exact H2|]. intros q Hq Hq'. cbn [heap]. hp. apply H3, Hq.
  Qed.

  Definition tree_body : stmt :=
    SSeq (SAssign (EName "head") (ECall (EName "iter") [EIndex (EName "tree") (ENeg (ENum 1))]))
      (SSeq (SAssign (EName "tail") (ECall (EName "iter") [EName "head"]))
         (SSeq (SAssign (EName "row") pair_expr)
               (SExpr (ECall (EAttr (EName "tree") "append") [EName "row"])))).

  Lemma getz_last {A} (l : list A) x : getz (l ++ [x]) (- (1)) = Ok x.
  Proof.
    unfold getz. change (- (1) <? 0)%Z with true. cbv iota. rewrite app_length. cbn [length].
    destruct (Z.ltb_spec (- (1) + Z.of_nat (length l + 1)) 0); [lia|].
    replace (Z.to_nat (- (1) + Z.of_nat (length l + 1))) with (length l + 0) by lia.
    unfold getn. rewrite nth_error_app2 by lia. replace (length l + 0 - length l) with 0 by lia. reflexivity.
  Qed.

  Definition no_builtins (en : env V) : Prop :=
    find "list" en = None /\ find "starmap" en = None /\ find "add" en = None /\ find "zip" en = None /\
    find "iter" en = None /\ find "len" en = None.

  Lemma no_builtins_put x v en : no_builtins en ->
    existsb (String.eqb x) ["list"; "starmap"; "add"; "zip"; "iter"; "len"] = false -> no_builtins (put x v en).
  Proof.
    intros (H1 & H2 & H3 & H4 & H5 & H6) H. cbn in H. rewrite !Bool.orb_false_iff in H. destruct H as (E1 & E2 & E3 & E4 & E5 & E6 & _).
    unfold no_builtins. rewrite !find_put, !(String.eqb_sym _ x), E1, E2, E3, E4, E5, E6. auto 10.
  Qed.

  Lemma tree_run m k T : forall f n row rows rids rid done en s,
    tree_rows f row = Ok rows -> f <= n -> find "tree" en = Some (VList T) -> no_builtins en ->
    find "self" en = Some VSelf ->
    heap s T = map VList (rids ++ [rid]) -> map (heap s) rids = map (map vnat) done -> heap s rid = map vnat row ->
    Forall (fun r => k <= r < next s) (rids ++ [rid]) -> k <= T < next s -> ~ In T (rids ++ [rid]) ->
    wp (while_loop n (eval (ECmp Qgt (ECall (EName "len") [EIndex (EName "tree") (ENeg (ENum 1))]) (ENum 1)))
          (exec m tree_body) en) s
       (fun x s' => exists en' all, x = Ok (Go en') /\ kept k s s' /\ heap s' T = map VList all /\
          map (heap s') all = map (map vnat) (done ++ rows) /\ Forall (fun r => k <= r < next s') all /\
          find "tree" en' = Some (VList T) /\ find "self" en' = Some VSelf /\
          (forall y, existsb (String.eqb y) ["head"; "tail"; "row"] = false -> find y en' = find y en)).
  Proof.
    induction f as [|f IH]; intros n row rows rids rid done en s H Hn Ft Hb Fs HT Hrs Hr Hall HTk HTin; [discriminate|].
    destruct n as [|n]; [lia|]. cbn [while_loop tree_rows] in *.
    pose proof Hb as (B1 & B2 & B3 & B4 & B5 & B6).
    assert (Hrid : k <= rid < next s /\ rid <> T).
    { split; [rewrite Forall_forall in Hall; apply Hall, in_or_app; right; left; reflexivity|].
      intros ->. apply HTin, in_or_app. right. left. reflexivity. }
    run. rewrite B6. run. rewrite Ft. run. rewrite HT, map_app. cbn [map]. rewrite getz_last. run.
    rewrite Hr, map_length. change 1%Z with (Z.of_nat 1) at 1. rewrite ltz_nat.
    destruct (Nat.ltb_spec 1 (length row)) as [H1|H1]; run.
    - destruct (tree_rows f (pair_sums row)) as [rest|] eqn:E; [|discriminate]. injection H as <-.
      unfold tree_body. run. rewrite B5. run. rewrite Ft. run. rewrite HT, map_app. cbn [map]. rewrite getz_last. run.
      fp. rewrite B5. run. fp. run.
      eapply wp_mono; [apply (pair_row _ (next s) row)|]; fp; try assumption; try reflexivity.
      { cbn [heap]. rewrite on_same, Hr. reflexivity. }
      { cbn [next]. lia. }
      cbv beta. intros x s1 (rr & -> & Hrr & Hh & Ha & Hk). run. fp. rewrite Ft. run. fp. run. cbn [next attrs heap] in *.
      assert (HT1 : heap s1 T = heap s T) by (rewrite Hk by lia; hp; reflexivity).
      assert (Hold : forall q, In q (rids ++ [rid]) -> heap s1 q = heap s q /\ q < next s /\ q <> T).
      { intros q Hq. pose proof (proj1 (Forall_forall _ _) Hall q Hq). cbn in *. split; [rewrite Hk by lia; hp; reflexivity|].
        split; [lia|]. intros ->. contradiction. }
      eapply wp_mono; [apply (IH n (pair_sums row) rest (rids ++ [rid]) rr (done ++ [row]))|].
      + exact E.
      + lia.
      + fp. exact Ft.
      + repeat apply no_builtins_put; try assumption; reflexivity.
      + fp. exact Fs.
      + cbn [heap]. rewrite on_same, HT1, HT, (map_app VList (rids ++ [rid])). reflexivity.
      + cbn [heap]. rewrite map_app, (map_app (map vnat)). f_equal.
        * rewrite <- Hrs. apply map_ext_in. intros q Hq. destruct (Hold q) as (? & ? & ?); [apply in_or_app; auto|].
          rewrite on_other by assumption. assumption.
        * cbn. destruct (Hold rid) as (? & ? & ?); [apply in_or_app; right; left; reflexivity|].
          rewrite on_other by assumption. congruence.
      + cbn [heap]. rewrite on_other by lia. exact Hh.
      + cbn [next]. apply Forall_app. split; [|repeat constructor; lia].
        eapply Forall_impl; [|exact Hall]. cbn. lia.
      + cbn [next]. lia.
      + rewrite in_app_iff. intros [Hin|[->|[]]]; [contradiction|lia].
      + cbv beta. intros x s2 (en' & all & -> & (K1 & K2 & K3) & G1 & G2 & G3 & G4 & G5 & G6). exists en', all.
        split; [reflexivity|]. split.
        { split; [exact K1|]. split; [rewrite K2; exact Ha|]. intros q Hq. rewrite K3 by exact Hq. cbn [heap].
          rewrite on_other by lia. rewrite Hk by lia. hp. reflexivity. }
        split; [exact G1|]. split; [rewrite G2, <- app_assoc; reflexivity|]. split; [exact G3|]. split; [exact G4|].
        split; [exact G5|]. intros y Hy. rewrite (G6 y Hy). rewrite !find_put. cbn in Hy. rewrite !Bool.orb_false_iff in Hy.
        destruct Hy as (Y1 & Y2 & Y3 & _). rewrite Y1, Y2, Y3. reflexivity.
    - injection H as <-. exists en, (rids ++ [rid]). split; [reflexivity|]. split; [split; [lia|auto]|].
      split; [exact HT|]. split; [rewrite !map_app; cbn; rewrite Hrs, Hr; reflexivity|]. auto.
  Qed.

  Lemma reduce_rows I : forall all rows acc (s : st V), heap s I = map vnat acc -> map (heap s) all = map (map vnat) rows -> ~ In I all ->
    wp (reduce_with "iadd" (map VList all) (VList I)) s
       (fun x s' => x = Ok (VList I) /\ index_now I s (acc ++ concat rows) s').
  Proof.
    induction all as [|r all IH]; intros [|row rows] acc s HI Hm Hin; cbn in Hm; try discriminate; cbn [map reduce_with concat].
    - run. rewrite app_nil_r. split; [reflexivity|]. repeat split; auto.
    - injection Hm as H1 H2. run. cbn [prim String.eqb Ascii.eqb Bool.eqb]. run. rewrite HI, H1, <- map_app.
      assert (Hr : r <> I) by (intros ->; apply Hin; left; reflexivity).
      assert (Hall : ~ In I all) by (intros X; apply Hin; right; exact X).
      eapply wp_mono; [apply (IH rows (acc ++ row))|].
      + cbn [heap]. apply on_same.
      + cbn [heap]. rewrite <- H2. apply map_ext_in. intros q Hq. apply on_other. intros ->. contradiction.
      + exact Hall.
      + cbv beta. intros x s' (-> & J1 & J2 & J3 & J4). split; [reflexivity|]. rewrite app_assoc. repeat split; auto.
        intros q Hq. rewrite J4 by exact Hq. cbn [heap]. apply on_other, Hq.
  Qed.

  Lemma log2_nat k : Z.log2 (Z.of_nat k) = Z.of_nat (Nat.log2 k).
  Proof.
    destruct (Nat.eq_dec k 0) as [->|Hk]; [reflexivity|].
    apply Z.log2_unique; [lia|]. pose proof (Nat.log2_spec k ltac:(lia)) as [H1 H2].
    split.
    - change 2%Z with (Z.of_nat 2). rewrite <- Nat2Z.inj_pow. lia.
    - rewrite <- Nat2Z.inj_succ. change 2%Z with (Z.of_nat 2). rewrite <- Nat2Z.inj_pow. lia.
  Qed.
End Build.

Definition build_fuel {V} (c : core V V) : nat := S (S (2 ^ (Nat.log2 (length (lists c)) + 1))).

Lemma holds_ix {V} L X I h nx h' nx' ids (c : core V V) ln ld ix off :
  h X = map VElt (maxes c) -> h L = map VList ids ->
  map h ids = map (map VElt) (lists c) -> NoDup (L :: X :: I :: ids) -> Forall (fun r => r < nx) (L :: X :: I :: ids) ->
  (forall q, q < nx -> q <> I -> h' q = h q) -> nx <= nx' -> h' I = map vnat ix -> ln = len c -> ld = load c ->
  holds L X I (mkst h' nx' (slots ln ld L X I off)) (set_offset off (set_index ix c)).
Proof.
  intros HX HL Hm Hd Hf Hk Hn HI -> ->. inversion Hf as [|? ? FL F1]; subst. inversion F1 as [|? ? FX F2]; subst.
  inversion F2 as [|? ? FI F3]; subst. inversion Hd as [|? ? NL D1]; subst. inversion D1 as [|? ? NX D2]; subst.
  inversion D2 as [|? ? NI D3]; subst.
  apply (holds_mk L X I h' nx' ids); cbn; try reflexivity; try assumption.
  - rewrite Hk; [exact HX|exact FX|]. intros ->. apply NX. left. reflexivity.
  - rewrite Hk; [exact HL|exact FL|]. intros ->. apply NL. right. left. reflexivity.
  - rewrite <- Hm. apply map_ext_in. intros q Hq. apply Hk; [rewrite Forall_forall in F3; apply F3, Hq|].
    intros ->. contradiction.
  - eapply Forall_impl; [|exact Hf]. cbn. lia.
Qed.

(** Only the list of [_index] and lists made meanwhile differ. *)
Definition still {V} (I : nat) (s s' : st V) : Prop :=
  next s <= next s' /\ forall q, q < next s -> q <> I -> heap s' q = heap s q.
Lemma still_refl {V} I (s : st V) : still I s s.
Proof. split; auto. Qed.
Lemma still_trans {V} I (a b c : st V) : still I a b -> still I b c -> still I a c.
Proof. intros (H1 & H2) (H3 & H4). split; [lia|]. intros q Hq Hn. rewrite H4, H2 by (lia || exact Hn). reflexivity. Qed.

Lemma holds_ix2 {V} L X I h nx h' nx' ids (c : core V V) ln ld ix off a :
  h X = map VElt (maxes c) -> h L = map VList ids ->
  map h ids = map (map VElt) (lists c) -> NoDup (L :: X :: I :: ids) -> Forall (fun r => r < nx) (L :: X :: I :: ids) ->
  (forall q, q < nx -> q <> I -> h' q = h q) -> nx <= nx' -> h' I = map vnat ix -> ln = len c -> ld = load c ->
  holds L X I (mkst h' nx' (slots ln ld L X I off)) (set_offset off (set_index ix c)) /\
  still I (mkst h nx a) (mkst h' nx' (slots ln ld L X I off)).
Proof.
  intros HX HL Hm Hd Hf Hk Hn HI Hln Hld. split; [|split; [exact Hn|exact Hk]].
  exact (holds_ix L X I h nx h' nx' ids c ln ld ix off HX HL Hm Hd Hf Hk Hn HI Hln Hld).
Qed.
