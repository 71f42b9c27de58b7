(** * The method __getitem__ (proofs) *)
From Coq Require Import String.
From Verif Require Import IndexFacts SliceFacts CoreFacts Shape VtFacts ListSim.
From Verif Require Import PyBase BaseFacts Model SourceSyntax SourceText SourceSem SourceRep SourceFacts SourceLoops SourceBuild SourceMoves SourceTree SourceMethods SourceChange SourceAdd SourcePos SourcePop SourceFill SourceBulk.
Local Open Scope string_scope.
Local Open Scope nat_scope.
Local Open Scope list_scope.
Local Unset Implicit Arguments.

Ltac upto_seq := cbv beta iota; repeat lazymatch goal with |- wp (exec _ _ _ _ (SSeq (SAssign (ETuple [EName "pos"; EName "idx"]) _) _) _) _ _ => fail | _ => ev end.

Section Get.
  Context {V : Type} (lt eq : V -> V -> res bool).

  Lemma src_get_int n d L X I s (c : core V V) z name : In name ["__getitem__"; "_getitem"] ->
    LShape c -> enough c n -> holds L X I s c ->
    wp (call lt eq klass n (S (S (S d))) name [VInt z]) s
       (fun r s' => r = rmap VElt (fst (getitem_int z c)) /\ holds L X I s' (snd (getitem_int z c)) /\ still I s s' /\
          LShape (snd (getitem_int z c)) /\ enough (snd (getitem_int z c)) n).
  Proof.
    intros Hname Hc Hn H. destruct (getitem_int z c) as [r0 c'] eqn:E. cbn [fst snd].
    assert (Hsame : forall r s', r = rmap VElt r0 -> c' = c -> s' = s ->
      r = rmap VElt r0 /\ holds L X I s' c' /\ still I s s' /\ LShape c' /\ enough c' n).
    { intros r s' -> -> ->. split; [reflexivity|]. split; [exact H|]. split; [apply still_refl|]. split; assumption. }
    destruct (holds_rep _ _ _ _ _ H) as (h & nx & ids & -> & R). pose proof R as (HX & HI & HL & Hm & Hd & Hf).
    pose proof (lshape_core _ Hc) as HC.
    match type of Hsame with forall r s', _ -> _ -> s' = ?s0 -> _ => set (ss := s0) in * end.
    assert (Hq : wp (call lt eq klass n (S (S (S d))) "__getitem__" [VInt z]) ss (fun r s' => r = rmap VElt r0 /\ holds L X I s' c' /\ still I ss s' /\ LShape c' /\ enough c' n)).
    2:{ destruct Hname as [<-|[<-|[]]]; exact Hq. }
    unfold getitem_int, bind, get, liftr, raise in E.
    enter. unfold ss. run. rewrite nzz_nat. destruct (Nat.eqb_spec (len c) 0) as [Hz|Hz]; cbn [negb]; run.
    { injection E as <- <-. apply Hsame; reflexivity. }
    destruct (last_of c HC Hz) as (Hl1 & ll & Hgl & Hll & Hlen1).
    pose proof (ids_length _ _ _ Hm) as Hidl.
    assert (H0 : exists l0, getn (lists c) 0 = Ok l0) by (apply getn_has; lia). destruct H0 as (l0 & Hg0).
    rewrite Hg0, Hll in E. pose proof (sub_at _ _ _ 0 Hm) as Hs0. rewrite Hg0 in Hs0. destruct Hs0 as (id0 & Hp0 & Hid0).
    pose proof (sub_at _ _ _ (length (lists c) - 1) Hm) as Hsl. rewrite Hgl in Hsl. destruct Hsl as (idl & Hpl & Hidll).
    destruct (Z.eqb_spec z 0) as [->|Hz0]; run.
    { rewrite HL, getz_map, getz_0, Hp0. run. rewrite Hid0, getz_map, getz_0.
      destruct (getn l0 0) as [x|e]; run; injection E as <- <-; apply Hsame; reflexivity. }
    change (- (1))%Z with (-1)%Z. destruct (Z.eqb_spec z (-1)) as [->|Hz1]; run.
    { change (- (1))%Z with (-1)%Z. rewrite HL, getz_map. rewrite getz_m1, Hidl, Hpl by lia. run. change (- (1))%Z with (-1)%Z. rewrite Hidll, getz_map.
      unfold getlast in E. destruct (getz ll (-1)) as [x|e]; run; injection E as <- <-; apply Hsame; reflexivity. }
    change (- (1))%Z with (-1)%Z.
    assert (Htail : forall en, find "index" en = Some (VInt z) -> find "self" en = Some VSelf -> find "_lists" en = Some (VList L) ->
      (let (r, c'0) := pos_of z c in match r with Ok p => match getn (lists c) (fst p) with Ok l => (getn l (snd p), c'0) | Err e => (Err e, c'0) end | Err e => (Err e, c'0) end) = (r0, c') ->
      wp (exec lt eq (call lt eq klass n (S (S d))) n
            (SSeq (SAssign (ETuple [EName "pos"; EName "idx"]) (ECall (EAttr (EName "self") "_pos") [EName "index"]))
                  (SReturn (EIndex (EIndex (EName "_lists") (EName "pos")) (EName "idx")))) en) ss
         (fun r s' => wrap r = rmap VElt r0 /\ holds L X I s' c' /\ still I ss s' /\ LShape c' /\ enough c' n)).
    { intros en F1 F2 F3 E2. unfold ss. run. rewrite F2. run. rewrite F1. run.
      destruct (in_or_out z (len c)) as [Hin|Hout].
      - destruct (pos_of_ok c z HC Hin) as (p & k & c1 & E1 & Ht & Hloc). rewrite E1 in E2.
        destruct (pos_enough n z c c1 (p, k) Hc Hn E1) as (Hc1 & Hn1 & _).
        eapply wp_mono; [apply (src_pos_still lt eq n d L X I _ c c1 z p k H E1 Hn HC)|].
        cbv beta. intros r s' (-> & H' & Hst). run. cbn [bind_names bind_name]. run. fp. rewrite F3. run. fp.
        destruct (holds_rep _ _ _ _ _ H') as (h1 & nx1 & ids1 & -> & R1). pose proof R1 as (_ & _ & HL1 & Hm1 & _).
        destruct (locate_get _ _ _ _ Hloc) as (l & Hgp & _ & Hkl & _). destruct (getn_has l k Hkl) as (x & Hx).
        cbn [fst snd] in E2. rewrite Hgp, Hx in E2. rewrite <- (touch_lists _ _ Ht) in Hgp.
        pose proof (sub_at _ _ _ p Hm1) as Hs1. rewrite Hgp in Hs1. destruct Hs1 as (id1 & Hp1 & Hid1).
        cbn [heap]. run. rewrite HL1, getz_map, getz_nat, Hp1. run. fp. run. rewrite Hid1, getz_map, getz_nat, Hx. run.
        injection E2 as <- <-. split; [reflexivity|]. auto.
      - rewrite (pos_of_err c z HC Hout) in E2. injection E2 as <- <-.
        eapply wp_mono; [apply (src_pos_out_same lt eq n d L X I _ c z H HC Hout)|].
        cbv beta. intros r s' (-> & ->). apply Hsame; reflexivity. }
    destruct (Z.leb_spec 0 z) as [Hz2|Hz2]; cbn [andb] in E; run.
    - rewrite HL, getz_map, getz_0, Hp0. run. rewrite Hid0, map_length.
      destruct (Z.ltb_spec z (Z.of_nat (length l0))) as [Hz3|Hz3]; run.
      + rewrite HL, getz_map, getz_0, Hp0. run. rewrite Hid0, getz_map.
        destruct (getz l0 z) as [x|e]; run; injection E as <- <-; apply Hsame; reflexivity.
      + rewrite HL, getz_map. change (- (1))%Z with (-1)%Z. rewrite getz_m1, Hidl, Hpl by lia. run. rewrite Hidll, map_length.
        destruct (Z.ltb_spec (- Z.of_nat (length ll)) z) as [Hz4|Hz4]; [|lia]. run.
        destruct (Z.ltb_spec z 0) as [Hz5|Hz5]; [lia|]. cbn [andb] in E. upto_seq. apply Htail; try reflexivity. exact E.
    - rewrite HL, getz_map. change (- (1))%Z with (-1)%Z. rewrite getz_m1, Hidl, Hpl by lia. run. rewrite Hidll, map_length.
      destruct (Z.ltb_spec (- Z.of_nat (length ll)) z) as [Hz4|Hz4]; cbn [andb] in E.
      + run. destruct (Z.ltb_spec z 0) as [Hz5|Hz5]; [|lia]. run. rewrite HL, getz_map. change (- (1))%Z with (-1)%Z.
        rewrite getz_m1, Hidl, Hpl by lia. run. rewrite Hidll, getz_map.
        destruct (getz ll (Z.of_nat (length ll) + z)) as [x|e]; run; injection E as <- <-; apply Hsame; reflexivity.
      + upto_seq. apply Htail; try reflexivity. exact E.
  Qed.
End Get.
