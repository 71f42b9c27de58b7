(** * The methods pop and index (proofs) *)
From Coq Require Import String.
From Verif Require Import IndexFacts SliceFacts CoreFacts Shape VtFacts ListSim.
From Verif Require Import PyBase BaseFacts Model SourceSyntax SourceText SourceSem SourceRep SourceFacts SourceLoops SourceBuild SourceMoves SourceTree SourceMethods SourceChange SourceAdd SourcePos.
Local Open Scope string_scope.
Local Open Scope nat_scope.
Local Open Scope list_scope.
Local Unset Implicit Arguments.

Ltac upto_if := cbv beta iota; repeat lazymatch goal with |- wp (exec _ _ _ _ (SIf _ _ _) _) _ _ => fail | _ => ev end.

(** An argument that may be left out. *)
Definition vopt {V} (o : option Z) : val V := match o with None => VNone | Some z => VInt z end.

Section Pop.
  Context {V : Type} (lt eq : V -> V -> res bool).

  Lemma src_index n d v L X I s (c c' : core V V) r0 a b :
    LShape c -> enough c n -> holds L X I s c ->
    (forall c1, touch c c1 -> exists k c2, sl_bisect_right lt v c1 = (Ok k, c2)) ->
    sl_index lt eq v a b c = (r0, c') ->
    wp (call lt eq klass n (S (S (S (S d)))) "index" [VElt v; vopt a; vopt b]) s
       (fun r s' => r = rmap vnat r0 /\ holds L X I s' c').
  Proof.
    intros Hc Hn H Hbr E. enter. destruct (holds_rep _ _ _ _ _ H) as (h & nx & ids & -> & R). pose proof R as (HX & HI & HL & Hm & Hd & Hf).
    unfold sl_index, bind, get, liftr, ret, raise in E.
    upto_if. run. rewrite nzz_nat, negb_involutive. destruct (Nat.eqb_spec (len c) 0) as [Hz|Hz].
    { run. injection E as <- <-. split; [reflexivity|exact H]. }
    cbv zeta in E. upto_if.
    match goal with |- wp _ ?s0 _ => set (ss := s0) in * end.
    set (N := Z.of_nat (len c)) in *.
    eapply wp_mono with (P := fun r s' => s' = ss /\ r = Ok (Go [("self", VSelf); ("value", VElt v);
      ("start", VInt (match a with None => 0 | Some z => z end)%Z); ("stop", vopt b); ("_len", VInt N)])).
    { destruct a; run; split; reflexivity. }
    cbv beta. intros r s' (-> & ->). upto_if. set (a1 := match a with None => 0 | Some z => z end%Z).
    eapply wp_mono with (P := fun r s' => s' = ss /\ r = Ok (Go [("self", VSelf); ("value", VElt v);
      ("start", VInt (if a1 <? 0 then a1 + N else a1)%Z); ("stop", vopt b); ("_len", VInt N)])).
    { clearbody a1. run. destruct (a1 <? 0)%Z; run; split; reflexivity. }
    cbv beta. intros r s' (-> & ->). upto_if. set (a2 := (if a1 <? 0 then a1 + N else a1)%Z).
    eapply wp_mono with (P := fun r s' => s' = ss /\ r = Ok (Go [("self", VSelf); ("value", VElt v);
      ("start", VInt (if a2 <? 0 then 0 else a2)%Z); ("stop", vopt b); ("_len", VInt N)])).
    { clearbody a2. run. destruct (a2 <? 0)%Z; run; split; reflexivity. }
    cbv beta. intros r s' (-> & ->). upto_if. change (if a2 <? 0 then 0 else a2)%Z with (index_start a N).
    clear a1 a2. set (A := index_start a N) in *. clearbody A.
    eapply wp_mono with (P := fun r s' => s' = ss /\ r = Ok (Go [("self", VSelf); ("value", VElt v);
      ("start", VInt A); ("stop", VInt (match b with None => N | Some z => z end)%Z); ("_len", VInt N)])).
    { destruct b; run; split; reflexivity. }
    cbv beta. intros r s' (-> & ->). upto_if. set (b1 := match b with None => N | Some z => z end%Z).
    eapply wp_mono with (P := fun r s' => s' = ss /\ r = Ok (Go [("self", VSelf); ("value", VElt v);
      ("start", VInt A); ("stop", VInt (if b1 <? 0 then b1 + N else b1)%Z); ("_len", VInt N)])).
    { clearbody b1. run. destruct (b1 <? 0)%Z; run; split; reflexivity. }
    cbv beta. intros r s' (-> & ->). upto_if. set (b2 := (if b1 <? 0 then b1 + N else b1)%Z).
    eapply wp_mono with (P := fun r s' => s' = ss /\ r = Ok (Go [("self", VSelf); ("value", VElt v);
      ("start", VInt A); ("stop", VInt (if N <? b2 then N else b2)%Z); ("_len", VInt N)])).
    { clearbody b2. run. destruct (N <? b2)%Z; run; split; reflexivity. }
    cbv beta. intros r s' (-> & ->). upto_if. change (if N <? b2 then N else b2)%Z with (index_stop b N).
    clear b1 b2. set (B := index_stop b N) in *. clearbody B. subst ss N.
    run. destruct (Z.leb_spec B A) as [HBA|HBA]; run. { injection E as <- <-. split; [reflexivity|exact H]. }
    rewrite HX, elts_map. run.
    destruct (bisect_left lt (maxes c) v) as [p|e]; run; [|injection E as <- <-; split; [reflexivity|exact H]].
    rewrite HX, map_length, eqz_nat. destruct (p =? length (maxes c)); run. { injection E as <- <-. split; [reflexivity|exact H]. }
    rewrite HL, getz_map, getz_nat.
    pose proof (sub_at _ _ _ p Hm) as Hs. destruct (getn (lists c) p) as [l|e] eqn:El.
    2:{ rewrite Hs. run. injection E as <- <-. split; [reflexivity|exact H]. }
    destruct Hs as (id & Hp & Hid). rewrite Hp. run. rewrite Hid, elts_map. run.
    destruct (bisect_left lt l v) as [i|e]; run; [|injection E as <- <-; split; [reflexivity|exact H]].
    rewrite HL, getz_map, getz_nat, Hp. run. rewrite Hid, getz_map, getz_nat.
    destruct (getn l i) as [x|e] eqn:Ex; run; [|injection E as <- <-; split; [reflexivity|exact H]].
    destruct (eq x v) as [[]|e]; cbn [negb] in *; run; try (injection E as <- <-; split; [reflexivity|exact H]).
    pose proof (getn_lt _ _ _ El) as Hpl.
    destruct (loc_has c p i (lshape_core _ Hc) Hpl) as (j & c1 & E1 & Ht & _). rewrite E1 in E.
    pose proof (loc_enough n p i c c1 j Hc Hn Hpl E1) as (Hc1 & Hn1 & _).
    eapply wp_mono; [apply (src_loc lt eq n (S d) L X I _ c c1 p i j H E1 Hn Hpl)|].
    cbv beta. intros r s' (-> & H'). run.
    destruct (Z.leb_spec A (Z.of_nat j)) as [HA|HA]; run.
    - destruct (Z.leb_spec (Z.of_nat j) (B - 1)) as [HB|HB]; run; injection E as <- <-; split; reflexivity || exact H'.
    - destruct (Hbr c1 Ht) as (k & c2 & E2). rewrite E2 in E.
      destruct (holds_rep _ _ _ _ _ H') as (h1 & nx1 & ids1 & -> & R1). run.
      eapply wp_mono; [apply (src_bisect_right lt eq n d v L X I _ c1 c2 k "_bisect_right" Hc1 Hn1)|]; [cbn; auto|exact H'|exact E2|].
      cbv beta. intros r s' (-> & H''). run.
      destruct (Z.leb_spec A (Z.of_nat k - 1)) as [HB|HB]; run; injection E as <- <-; split; try exact H''; try reflexivity.
      cbn [rmap]. unfold vnat. rewrite Z2Nat.id by lia. reflexivity.
  Qed.

  Lemma src_del_at n d L X I s (c : core V V) p k l x : LShape c -> enough c n -> holds L X I s c ->
    getn (lists c) p = Ok l -> getn l k = Ok x ->
    wp (call lt eq klass n (S (S d)) "_delete" [VInt (Z.of_nat p); VInt (Z.of_nat k)]) s
       (fun r s' => r = Ok VNone /\ exists c', sl_delete p k c = (Ok tt, c') /\ holds L X I s' c').
  Proof.
    intros Hc Hn H Hl Hx. destruct (delete_has lt p k c l x Hc Hl Hx) as (c' & E).
    eapply wp_mono; [apply (src_delete lt eq n d L X I s c c' p k Hn H E)|]. cbv beta. intros r s' (-> & H').
    split; [reflexivity|]. exists c'. auto.
  Qed.

  Lemma getz_0 {A} (l : list A) : getz l 0 = getn l 0.
  Proof. reflexivity. Qed.

  Lemma getz_m1 {A} (l : list A) : 1 <= length l -> getz l (-1) = getn l (length l - 1).
  Proof.
    intros H. unfold getz. change (-1 <? 0)%Z with true. cbv beta iota zeta.
    destruct (Z.ltb_spec (-1 + Z.of_nat (length l)) 0); [lia|]. f_equal. lia.
  Qed.
  Lemma in_or_out z k : (0 <= norm k z < Z.of_nat k)%Z \/ ~ (0 <= norm k z < Z.of_nat k)%Z.
  Proof. lia. Qed.

  Lemma last_of (c : core V V) : CoreOK c -> len c <> 0 ->
    1 <= length (lists c) /\ exists l, getn (lists c) (length (lists c) - 1) = Ok l /\ getlast (lists c) = Ok l /\ 1 <= length l.
  Proof.
    intros H Hz. assert (Hne : lists c <> []).
    { intros E. apply Hz. rewrite (co_len _ H). unfold contents. rewrite E. reflexivity. }
    destruct (exists_last Hne) as (t & l & E). pose proof (co_ne _ H) as Hf. rewrite E in *.
    rewrite app_length. cbn. split; [lia|]. exists l. rewrite getlast_snoc.
    replace (length t + 1 - 1) with (length t) by lia. rewrite getn_app. split; [reflexivity|]. split; [reflexivity|].
    apply Forall_app in Hf. destruct Hf as (_ & Hf). inversion Hf; subst. destruct l; [congruence|cbn; lia].
  Qed.

  Lemma src_pop n d L X I s (c c' : core V V) r0 z :
    LShape c -> enough c n -> holds L X I s c -> pop (sl_vt lt) z c = (r0, c') ->
    wp (call lt eq klass n (S (S (S d))) "pop" [VInt z]) s
       (fun r s' => r = rmap VElt r0 /\ holds L X I s' c').
  Proof.
    intros Hc Hn H E. enter. destruct (holds_rep _ _ _ _ _ H) as (h & nx & ids & -> & R). pose proof R as (HX & HI & HL & Hm & Hd & Hf).
    pose proof (lshape_core _ Hc) as HC.
    unfold pop, oncore, zoom, sl_vt, bind, get, liftr, ret, raise in E. cbn [vt_get vt_put vt_delete] in E.
    run. rewrite nzz_nat, negb_involutive. destruct (Nat.eqb_spec (len c) 0) as [Hz|Hz]; run.
    { injection E as <- <-. split; [reflexivity|exact H]. }
    destruct (last_of c HC Hz) as (Hl1 & ll & Hgl & Hll & Hlen1).
    pose proof (ids_length _ _ _ Hm) as Hidl.
    assert (H0 : exists l0, getn (lists c) 0 = Ok l0) by (apply getn_has; lia). destruct H0 as (l0 & Hg0).
    rewrite Hg0 in E. pose proof (sub_at _ _ _ 0 Hm) as Hs0. rewrite Hg0 in Hs0. destruct Hs0 as (id0 & Hp0 & Hid0).
    pose proof (sub_at _ _ _ (length (lists c) - 1) Hm) as Hsl. rewrite Hgl in Hsl. destruct Hsl as (idl & Hpl & Hidll).
    destruct (Z.eqb_spec z 0) as [->|Hz0]; run.
    { rewrite HL, getz_map. change 0%Z with (Z.of_nat 0). rewrite getz_nat, Hp0. run. rewrite Hid0, getz_map, getz_nat.
      destruct (getn_has l0 0) as (x & Hx).
      { pose proof (co_ne _ HC) as Hne. rewrite Forall_forall in Hne. specialize (Hne _ (getn_in _ _ _ Hg0)). destruct l0; [congruence|cbn; lia]. }
      rewrite Hx in *. run. change 0%Z with (Z.of_nat 0).
      eapply wp_mono; [apply (src_del_at n d L X I _ c 0 0 l0 x Hc Hn H Hg0 Hx)|].
      cbv beta. intros r s' (-> & c2 & E2 & H'). rewrite E2 in E. injection E as <- <-. run. split; [reflexivity|exact H']. }
    change (- (1))%Z with (-1)%Z. destruct (Z.eqb_spec z (-1)) as [->|Hz1]; run.
    { rewrite HL, map_length, Hidl. replace (Z.of_nat (length (lists c)) - 1)%Z with (Z.of_nat (length (lists c) - 1)) by lia.
      rewrite getz_map, getz_nat, Hpl. run. rewrite Hidll, map_length. rewrite HL, getz_map, getz_nat, Hpl. run.
      rewrite Hgl in E. unfold subc in E. destruct (Nat.leb_spec 1 (length ll)); [|lia].
      replace (Z.of_nat (length ll) - 1)%Z with (Z.of_nat (length ll - 1)) by lia. rewrite Hidll, getz_map, getz_nat.
      destruct (getn_has ll (length ll - 1) ltac:(lia)) as (x & Hx). rewrite Hx in *. run.
      eapply wp_mono; [apply (src_del_at n d L X I _ c _ _ ll x Hc Hn H Hgl Hx)|].
      cbv beta. intros r s' (-> & c2 & E2 & H'). rewrite E2 in E. injection E as <- <-. run. split; [reflexivity|exact H']. }
    destruct (Z.leb_spec 0 z) as [Hz2|Hz2]; cbn [andb] in E; run.
    - rewrite HL, getz_map, getz_0, Hp0. run. rewrite Hid0, map_length.
      destruct (Z.ltb_spec z (Z.of_nat (length l0))) as [Hz3|Hz3]; run.
      + rewrite HL, getz_map, getz_0, Hp0. run. rewrite Hid0, getz_map. rewrite <- (Z2Nat.id z) in E |- * by lia. rewrite getz_nat in E |- *.
        rewrite Z2Nat.id in E by lia.
        destruct (getn_has l0 (Z.to_nat z) ltac:(lia)) as (x & Hx). rewrite Hx in *. run. change 0%Z with (Z.of_nat 0).
        eapply wp_mono; [apply (src_del_at n d L X I _ c 0 _ l0 x Hc Hn H Hg0 Hx)|].
        cbv beta. intros r s' (-> & c2 & E2 & H'). rewrite E2 in E. injection E as <- <-. run. split; [reflexivity|exact H'].
      + rewrite HL, getz_map. change (- (1))%Z with (-1)%Z. rewrite getz_m1, Hidl, Hpl by lia. run. rewrite Hidll, map_length.
        rewrite Hll in E. destruct (Z.ltb_spec (- Z.of_nat (length ll)) z) as [Hz4|Hz4]; [|lia]. run.
        destruct (Z.ltb_spec z 0) as [Hz5|Hz5]; [lia|]. run. cbn [andb] in E. destruct (in_or_out z (len c)) as [Hin|Hout].
        * destruct (pos_of_ok c z HC Hin) as (p & k & c1 & E1 & Ht & Hloc). rewrite E1 in E.
          destruct (pos_enough n z c c1 (p, k) Hc Hn E1) as (Hc1 & Hn1 & _).
          eapply wp_mono; [apply (src_pos lt eq n d L X I _ c c1 z p k H E1 Hn HC)|].
          cbv beta. intros r s' (-> & H'). run. cbn [bind_names bind_name put String.eqb Ascii.eqb Bool.eqb]. run.
          destruct (holds_rep _ _ _ _ _ H') as (h1 & nx1 & ids1 & -> & R1). pose proof R1 as (_ & _ & HL1 & Hm1 & _).
          destruct (locate_get _ _ _ _ Hloc) as (l & Hgp & _ & Hkl & _). destruct (getn_has l k Hkl) as (x & Hx).
          cbn [fst snd] in E. rewrite Hgp, Hx in E. rewrite <- (touch_lists _ _ Ht) in Hgp.
          pose proof (sub_at _ _ _ p Hm1) as Hs1. rewrite Hgp in Hs1. destruct Hs1 as (id1 & Hp1 & Hid1).
          run. cbn [put String.eqb Ascii.eqb Bool.eqb]. run. rewrite HL1, getz_map, getz_nat, Hp1. run. rewrite Hid1, getz_map, getz_nat, Hx. run.
          eapply wp_mono; [apply (src_del_at n d L X I _ c1 _ _ l x Hc1 Hn1 H' Hgp Hx)|].
          cbv beta. intros r s' (-> & c2 & E2 & H2). rewrite E2 in E. injection E as <- <-. run. split; [reflexivity|exact H2].
        * rewrite (pos_of_err c z HC Hout) in E. injection E as <- <-.
          eapply wp_mono; [apply (src_pos_out lt eq n d L X I _ c z H HC Hout)|].
          cbv beta. intros r s' (-> & H'). run. split; [reflexivity|exact H'].
    - rewrite HL, getz_map. change (- (1))%Z with (-1)%Z. rewrite getz_m1, Hidl, Hpl by lia. run. rewrite Hidll, map_length.
      rewrite Hll in E. destruct (Z.ltb_spec (- Z.of_nat (length ll)) z) as [Hz4|Hz4]; run.
      + destruct (Z.ltb_spec z 0) as [Hz5|Hz5]; [|lia]. run. cbn [andb] in E.
        rewrite HL, map_length, Hidl. replace (Z.of_nat (length (lists c)) - 1)%Z with (Z.of_nat (length (lists c) - 1)) by lia.
        rewrite getz_map, getz_nat, Hpl. run. rewrite Hgl in E.
        replace (Z.of_nat (length ll) + z)%Z with (Z.of_nat (Z.to_nat (Z.of_nat (length ll) + z))) by lia.
        rewrite Hidll, getz_map, getz_nat.
        destruct (getn_has ll (Z.to_nat (Z.of_nat (length ll) + z)) ltac:(lia)) as (x & Hx). rewrite Hx in *. run.
        eapply wp_mono; [apply (src_del_at n d L X I _ c _ _ ll x Hc Hn H Hgl Hx)|].
        cbv beta. intros r s' (-> & c2 & E2 & H'). rewrite E2 in E. injection E as <- <-. run. split; [reflexivity|exact H'].
      + cbn [andb] in E. destruct (in_or_out z (len c)) as [Hin|Hout].
        * destruct (pos_of_ok c z HC Hin) as (p & k & c1 & E1 & Ht & Hloc). rewrite E1 in E.
          destruct (pos_enough n z c c1 (p, k) Hc Hn E1) as (Hc1 & Hn1 & _).
          eapply wp_mono; [apply (src_pos lt eq n d L X I _ c c1 z p k H E1 Hn HC)|].
          cbv beta. intros r s' (-> & H'). run. cbn [bind_names bind_name put String.eqb Ascii.eqb Bool.eqb]. run.
          destruct (holds_rep _ _ _ _ _ H') as (h1 & nx1 & ids1 & -> & R1). pose proof R1 as (_ & _ & HL1 & Hm1 & _).
          destruct (locate_get _ _ _ _ Hloc) as (l & Hgp & _ & Hkl & _). destruct (getn_has l k Hkl) as (x & Hx).
          cbn [fst snd] in E. rewrite Hgp, Hx in E. rewrite <- (touch_lists _ _ Ht) in Hgp.
          pose proof (sub_at _ _ _ p Hm1) as Hs1. rewrite Hgp in Hs1. destruct Hs1 as (id1 & Hp1 & Hid1).
          run. cbn [put String.eqb Ascii.eqb Bool.eqb]. run. rewrite HL1, getz_map, getz_nat, Hp1. run. rewrite Hid1, getz_map, getz_nat, Hx. run.
          eapply wp_mono; [apply (src_del_at n d L X I _ c1 _ _ l x Hc1 Hn1 H' Hgp Hx)|].
          cbv beta. intros r s' (-> & c2 & E2 & H2). rewrite E2 in E. injection E as <- <-. run. split; [reflexivity|exact H2].
        * rewrite (pos_of_err c z HC Hout) in E. injection E as <- <-.
          eapply wp_mono; [apply (src_pos_out lt eq n d L X I _ c z H HC Hout)|].
          cbv beta. intros r s' (-> & H'). run. split; [reflexivity|exact H'].
  Qed.
End Pop.
