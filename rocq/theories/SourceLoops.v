(** * The loops of the text (proofs) *)
From Coq Require Import String.
From Verif Require Import PyBase BaseFacts Model SourceSyntax SourceText SourceSem SourceRep SourceFacts.
Local Open Scope string_scope.
Local Open Scope nat_scope.
Local Open Scope list_scope.
Local Unset Implicit Arguments.

Lemma updn_inv {A} (f : A -> res A) l : forall i l', updn l i f = Ok l' ->
  i < length l /\ exists x y, getn l i = Ok x /\ f x = Ok y /\ setn l i y = Ok l'.
Proof.
  induction l as [|a l IH]; intros i l' H; [discriminate|]. destruct i; cbn in H.
  - destruct (f a) as [y|] eqn:E; [|discriminate]. cbn in H. injection H as <-. cbn. split; [lia|].
    exists a, y. auto.
  - destruct (updn l i f) as [t|] eqn:E; [|discriminate]. cbn in H. injection H as <-.
    destruct (IH _ _ E) as (Hl & x & y & Hx & Hy & Hs). cbn. split; [lia|]. exists x, y.
    split; [exact Hx|]. split; [exact Hy|]. unfold setn in *. cbn. rewrite Hs. reflexivity.
Qed.
Lemma setn_map {A B} (g : A -> B) l : forall i y, setn (map g l) i (g y) = rmap (map g) (setn l i y).
Proof.
  unfold setn. induction l as [|a l IH]; intros i y; [reflexivity|]. destruct i; cbn; [reflexivity|].
  rewrite IH. destruct (updn l i (fun _ => Ok y)); reflexivity.
Qed.
Lemma half_z n : 0 < n -> Z.shiftr (Z.of_nat n - 1) 1 = Z.of_nat ((n - 1) / 2).
Proof.
  intros H. rewrite Z.shiftr_div_pow2 by lia. change (2 ^ 1)%Z with 2%Z.
  rewrite Nat2Z.inj_div. f_equal. lia.
Qed.

Lemma twice_z n : (Z.shiftl (Z.of_nat n) 1 + 1)%Z = Z.of_nat (n * 2 + 1).
Proof. rewrite Z.shiftl_mul_pow2 by lia. change (2 ^ 1)%Z with 2%Z. lia. Qed.
Lemma odd_land n : (Z.land (Z.of_nat n) 1 =? 0)%Z = Nat.even n.
Proof.
  change 1%Z with (Z.ones 1). rewrite Z.land_ones by lia. change (2 ^ 1)%Z with (Z.of_nat 2).
  rewrite <- Nat2Z.inj_mod, nzz_nat. pose proof (Nat.bit0_eqb n) as H. rewrite Nat.bit0_odd in H.
  rewrite <- Nat.negb_odd, H. pose proof (Nat.mod_upper_bound n 2). destruct (n mod 2) as [|[|k]]; cbn; try reflexivity; lia.
Qed.
Lemma find_put {V} x y (v : val V) en : find x (put y v en) = if String.eqb x y then Some v else find x en.
Proof.
  induction en as [|[z w] en IH]; cbn; [destruct (String.eqb x y); reflexivity|].
  destruct (String.eqb_spec y z) as [->|Hn]; cbn.
  - destruct (String.eqb x z); reflexivity.
  - rewrite IH. destruct (String.eqb_spec x z) as [->|]; [|reflexivity].
    destruct (String.eqb_spec z y) as [->|]; [contradiction|reflexivity].
Qed.
Ltac fp := rewrite ?find_put; cbn [String.eqb Ascii.eqb Bool.eqb]; cbv beta iota.

Definition walk_body (o : bop) : stmt :=
  SSeq (SAug (EIndex (EName "_index") (EName "child")) o (ENum 1))
       (SAssign (EName "child") (EBin Oshr (EBin Osub (EName "child") (ENum 1)) (ENum 1))).

Section Loops.
  Context {V : Type} (lt eq : V -> V -> res bool) (iv : string -> list (val V) -> M (st V) (val V)).
  Notation exec := (exec lt eq iv).
  Notation eval := (eval lt eq iv).

  (** Only the index has changed, to [ix]. *)
  Definition index_now (I : nat) (s : st V) (ix : list nat) (s' : st V) : Prop :=
    next s' = next s /\ attrs s' = attrs s /\ heap s' I = map vnat ix /\ forall q, q <> I -> heap s' q = heap s q.

  Lemma walk_expand m a b L I : forall f n child ix ix' s,
    walk_up (fun k => Ok (k + 1)) f child ix = Ok ix' -> f <= n -> heap s I = map vnat ix ->
    wp (while_loop n (eval (EName "child")) (exec m (walk_body Oadd))
          [("self", VSelf); ("pos", a); ("_load", b); ("_lists", VList L); ("_index", VList I); ("child", vnat child)]) s
       (fun r s' => r = Ok (Go [("self", VSelf); ("pos", a); ("_load", b); ("_lists", VList L); ("_index", VList I); ("child", vnat 0)])
                    /\ index_now I s ix' s').
  Proof.
    induction f as [|f IH]; intros n child ix ix' s H Hn HI; [discriminate|].
    destruct n as [|n]; [lia|]. cbn [while_loop walk_up] in *. run. rewrite nzz_nat.
    destruct (Nat.eqb_spec child 0) as [->|Hc]; cbn [negb]; run.
    - injection H as <-. split; [reflexivity|]. repeat split; auto.
    - destruct (updn ix child (fun k => Ok (k + 1))) as [ix1|] eqn:E; [|discriminate].
      cbn [rbind] in H. destruct (updn_inv _ _ _ _ E) as (Hlt & x & y & Hx & Hy & Hs). injection Hy as <-.
      unfold walk_body. run. rewrite HI, getz_map, getz_nat, Hx. run.
      rewrite HI, map_length, place_nat. destruct (Nat.ltb_spec child (length ix)); [|lia]. run.
      replace (Z.of_nat x + 1)%Z with (Z.of_nat (x + 1)) by lia.
      change (VInt (Z.of_nat (x + 1))) with (@vnat V (x + 1)). rewrite setn_map, Hs. cbn [rmap]. run.
      change (1 <? 0)%Z with false. run. rewrite half_z by lia.
      eapply wp_mono; [apply (IH n _ _ _ _ H)|].
      + lia.
      + cbn [heap]. apply on_same.
      + cbv beta. intros r s' (Hr & J1 & J2 & J3 & J4). split; [exact Hr|]. cbn in *. repeat split; auto.
        intros q Hq. rewrite J4 by exact Hq. apply on_other, Hq.
  Qed.

  Lemma walk_delete m a i L X I l k : forall f n child ix ix' s,
    walk_up (fun k => subc k 1) f child ix = Ok ix' -> f <= n -> heap s I = map vnat ix ->
    wp (while_loop n (eval (ECmp Qgt (EName "child") (ENum 0))) (exec m (walk_body Osub))
          [("self", VSelf); ("pos", a); ("idx", i); ("_lists", VList L); ("_maxes", VList X); ("_index", VList I);
           ("_lists_pos", l); ("len_lists_pos", k); ("child", vnat child)]) s
       (fun r s' => r = Ok (Go [("self", VSelf); ("pos", a); ("idx", i); ("_lists", VList L); ("_maxes", VList X);
                                ("_index", VList I); ("_lists_pos", l); ("len_lists_pos", k); ("child", vnat 0)])
                    /\ index_now I s ix' s').
  Proof.
    induction f as [|f IH]; intros n child ix ix' s H Hn HI; [discriminate|].
    destruct n as [|n]; [lia|]. cbn [while_loop walk_up] in *. run. change 0%Z with (Z.of_nat 0). rewrite ltz_nat.
    destruct (Nat.eqb_spec child 0) as [->|Hc].
    - cbn [Nat.ltb Nat.leb]. run. injection H as <-. split; [reflexivity|]. repeat split; auto.
    - destruct (Nat.ltb_spec 0 child); [|lia].
      destruct (updn ix child (fun k => subc k 1)) as [ix1|] eqn:E; [|discriminate].
      cbn [rbind] in H. destruct (updn_inv _ _ _ _ E) as (Hlt & x & y & Hx & Hy & Hs).
      unfold subc in Hy. destruct (Nat.leb_spec 1 x); [|discriminate]. injection Hy as <-.
      unfold walk_body. run. rewrite HI, getz_map, getz_nat, Hx. run.
      rewrite HI, map_length, place_nat. destruct (Nat.ltb_spec child (length ix)); [|lia]. run.
      replace (Z.of_nat x - 1)%Z with (Z.of_nat (x - 1)) by lia.
      change (VInt (Z.of_nat (x - 1))) with (@vnat V (x - 1)). rewrite setn_map, Hs. cbn [rmap]. run.
      change (1 <? 0)%Z with false. run. rewrite half_z by lia.
      eapply wp_mono; [apply (IH n _ _ _ _ H)|].
      + lia.
      + cbn [heap]. apply on_same.
      + cbv beta. intros r s' (Hr & J1 & J2 & J3 & J4). split; [exact Hr|]. cbn in *. repeat split; auto.
        intros q Hq. rewrite J4 by exact Hq. apply on_other, Hq.
  Qed.

  (** [_loc]: the walk to the root. *)
  Definition loc_body : stmt :=
    SSeq (SIf (ENot (EBin Oand (EName "pos") (ENum 1)))
              (SAug (EName "total") Oadd (EIndex (EName "_index") (EBin Osub (EName "pos") (ENum 1)))) SPass)
         (SAssign (EName "pos") (EBin Oshr (EBin Osub (EName "pos") (ENum 1)) (ENum 1))).

  Lemma walk_loc m a I : forall f n pos total ix t s,
    loc_loop f ix pos total = Ok t -> f <= n -> heap s I = map vnat ix ->
    wp (while_loop n (eval (EName "pos")) (exec m loc_body)
          [("self", VSelf); ("pos", vnat pos); ("idx", a); ("_index", VList I); ("total", vnat total)]) s
       (fun r s' => r = Ok (Go [("self", VSelf); ("pos", vnat 0); ("idx", a); ("_index", VList I); ("total", vnat t)])
                    /\ s' = s).
  Proof.
    induction f as [|f IH]; intros n pos total ix t s H Hn HI; [discriminate|].
    destruct n as [|n]; [lia|]. cbn [while_loop loc_loop] in *. run. rewrite nzz_nat.
    destruct (Nat.eqb_spec pos 0) as [->|Hc]; cbn [negb]; run.
    - injection H as <-. split; reflexivity.
    - unfold loc_body. run. rewrite odd_land, !negb_involutive. destruct (Nat.even pos) eqn:E; run.
      + replace (Z.of_nat pos - 1)%Z with (Z.of_nat (pos - 1)) by lia. rewrite HI, getz_map, getz_nat.
        destruct (getn ix (pos - 1)) as [x|]; [|discriminate]. cbn [rbind] in H. run.
        change (1 <? 0)%Z with false. run. rewrite half_z by lia. rewrite <- Nat2Z.inj_add.
        eapply IH; [exact H|lia|exact HI].
      + cbn [rbind] in H. change (1 <? 0)%Z with false. run. rewrite half_z by lia.
        eapply IH; [exact H|lia|exact HI].
  Qed.

  Definition pos_body : stmt :=
    SSeq (SAssign (EName "index_child") (EIndex (EName "_index") (EName "child")))
      (SSeq (SIf (ECmp Qlt (EName "idx") (EName "index_child"))
                 (SAssign (EName "pos") (EName "child"))
                 (SSeq (SAug (EName "idx") Osub (EName "index_child"))
                       (SAssign (EName "pos") (EBin Oadd (EName "child") (ENum 1)))))
            (SAssign (EName "child") (EBin Oadd (EBin Oshl (EName "pos") (ENum 1)) (ENum 1)))).

  Lemma walk_pos m I : forall f n pos child idx ix p i en s,
    pos_loop f ix pos child idx = Ok (p, i) -> f <= n -> heap s I = map vnat ix ->
    find "_index" en = Some (VList I) -> find "len_index" en = Some (vnat (length ix)) ->
    find "child" en = Some (vnat child) -> find "pos" en = Some (vnat pos) -> find "idx" en = Some (vnat idx) ->
    find "self" en = Some VSelf ->
    wp (while_loop n (eval (ECmp Qlt (EName "child") (EName "len_index"))) (exec m pos_body) en) s
       (fun r s' => s' = s /\ exists en', r = Ok (Go en') /\ find "pos" en' = Some (vnat p) /\
                    find "idx" en' = Some (vnat i) /\ find "self" en' = Some VSelf).
  Proof.
    induction f as [|f IH]; intros n pos child idx ix p i en s H Hn HI F1 F2 F3 F4 F5 F6; [discriminate|].
    destruct n as [|n]; [lia|]. cbn [while_loop pos_loop] in *. run. rewrite F3. run. rewrite F2. run. rewrite ltz_nat.
    destruct (Nat.ltb_spec child (length ix)) as [Hc|Hc]; run.
    - destruct (getn ix child) as [x|] eqn:E; [|discriminate]. cbn [rbind] in H.
      unfold pos_body. run. rewrite F1. run. rewrite F3. run. rewrite HI, getz_map, getz_nat, E. run.
      fp. rewrite F5. run. fp. run. rewrite ltz_nat. destruct (Nat.ltb_spec idx x); run.
      + fp. rewrite F3. run. fp. run. change (1 <? 0)%Z with false. run. rewrite twice_z.
        eapply IH; [exact H|lia|exact HI|..]; fp; assumption || (try reflexivity).
      + fp. rewrite F5. run. fp. run. fp. rewrite F3. run. fp. run. change (1 <? 0)%Z with false. run.
        replace (Z.of_nat child + 1)%Z with (Z.of_nat (child + 1)) by lia. rewrite twice_z.
        eapply IH; [exact H|lia|exact HI|..]; fp; try assumption; try reflexivity.
        rewrite <- Nat2Z.inj_sub by lia. reflexivity.
    - injection H as <- <-. split; [reflexivity|]. exists en. auto.
  Qed.
End Loops.
