(** * Running the text symbolically (proofs) *)
From Coq Require Import String.
From Verif Require Import PyBase BaseFacts Model SourceSyntax SourceText SourceSem SourceRep.
Local Open Scope string_scope.
Local Open Scope nat_scope.
Local Open Scope list_scope.
Local Unset Implicit Arguments.

Definition wp {S A} (m : M S A) (s : S) (Q : res A -> S -> Prop) : Prop := Q (fst (m s)) (snd (m s)).

Lemma wp_ret {S A} (a : A) (s : S) (Q : res A -> S -> Prop) : Q (Ok a) s -> wp (ret a) s Q.
Proof. exact (fun H => H). Qed.
Lemma wp_raise {S A} e (s : S) (Q : res A -> S -> Prop) : Q (Err e) s -> wp (raise e) s Q.
Proof. exact (fun H => H). Qed.
Lemma wp_bind {S A B} (m : M S A) (k : A -> M S B) s (Q : res B -> S -> Prop) :
  wp m s (fun r s' => match r with Ok a => wp (k a) s' Q | Err e => Q (Err e) s' end) -> wp (bind m k) s Q.
Proof. unfold wp, bind. destruct (m s) as [[a|e] s']; exact (fun H => H). Qed.
Lemma wp_lift {S A} (r : res A) (s : S) (Q : res A -> S -> Prop) : Q r s -> wp (liftr r) s Q.
Proof. exact (fun H => H). Qed.
Lemma wp_eq {S A} (m : M S A)  (s : S) (Q : res A -> S -> Prop) r s' : m s = (r, s') -> Q r s' -> wp m s Q.
Proof. unfold wp. intros ->. exact (fun H => H). Qed.
Lemma wp_mono {S A} (m : M S A) (s : S) (P Q : res A -> S -> Prop) : wp m s P -> (forall r s', P r s' -> Q r s') -> wp m s Q.
Proof. unfold wp. auto. Qed.
Lemma wp_out {S A} (m : M S A) (s : S) (Q : res A -> S -> Prop) : wp m s Q -> Q (fst (m s)) (snd (m s)).
Proof. exact (fun H => H). Qed.

Section Rules.
  Context {V : Type} (lt eq : V -> V -> res bool) (iv : string -> list (val V) -> M (st V) (val V)) (n : nat).
  Notation exec := (exec lt eq iv n).
  Notation eval := (eval lt eq iv).

  Lemma wp_load r (s : st V) (Q : res (list (val V)) -> st V -> Prop) : Q (Ok (heap s r)) s -> wp (load_at r) s Q.
  Proof. exact (fun H => H). Qed.
  Lemma wp_store r l (s : st V) (Q : res unit -> st V -> Prop) : Q (Ok tt) (mkst (on (heap s) r l) (next s) (attrs s)) -> wp (store r l) s Q.
  Proof. exact (fun H => H). Qed.
  Lemma wp_alloc l (s : st V) (Q : res nat -> st V -> Prop) :
    Q (Ok (next s)) (mkst (on (heap s) (next s) l) (S (next s)) (attrs s)) -> wp (alloc l) s Q.
  Proof. exact (fun H => H). Qed.
  Lemma wp_set a v (s : st V) (Q : res unit -> st V -> Prop) : Q (Ok tt) (mkst (heap s) (next s) (put a v (attrs s))) -> wp (set_attr a v) s Q.
  Proof. exact (fun H => H). Qed.
  Lemma wp_get a (s : st V) (Q : res (val V) -> st V -> Prop) :
    Q (match find a (attrs s) with Some v => Ok v | None => Ok (VMeth a) end) s -> wp (get_attr a) s Q.
  Proof. exact (fun H => H). Qed.

  Lemma wp_seq a b en s Q :
    wp (exec a en) s (fun r s' => match r with Ok (Go en') => wp (exec b en') s' Q | Ok (Done v) => Q (Ok (Done v)) s' | Err e => Q (Err e) s' end) ->
    wp (exec (SSeq a b) en) s Q.
  Proof. intros H. apply wp_bind. eapply wp_mono; [exact H|]. clear H. intros [[en0|v]|e] s0 H; exact H. Qed.
  Lemma wp_if c a b en s Q :
    wp (eval c en) s (fun r s' => match r with
        | Ok v => wp (truth v) s' (fun r s' => match r with Ok t => wp (if t then exec a en else exec b en) s' Q | Err e => Q (Err e) s' end)
        | Err e => Q (Err e) s' end) ->
    wp (exec (SIf c a b) en) s Q.
  Proof. intros H. apply wp_bind. eapply wp_mono; [exact H|]. clear H. intros [v|e] s' H; [apply wp_bind|]; exact H. Qed.
End Rules.

Lemma on_same {V} (h : nat -> list (val V)) r l : on h r l r = l.
Proof. unfold on. rewrite Nat.eqb_refl. reflexivity. Qed.
Lemma on_other {V} (h : nat -> list (val V)) r l q : q <> r -> on h r l q = h q.
Proof. unfold on. intros H. destruct (Nat.eqb_spec q r); [contradiction|reflexivity]. Qed.

Lemma elts_map {V} (l : list V) : elts_of (map (@VElt V) l) = Ok l.
Proof. unfold elts_of. induction l; cbn; [reflexivity|]. rewrite IHl. reflexivity. Qed.
Lemma getn_map {A B} (f : A -> B) l i : getn (map f l) i = match getn l i with Ok x => Ok (f x) | Err e => Err e end.
Proof. unfold getn. rewrite nth_error_map. destruct (nth_error l i); reflexivity. Qed.
Lemma getz_nat {A} (l : list A) i : getz l (Z.of_nat i) = getn l i.
Proof. unfold getz. destruct (Z.ltb_spec (Z.of_nat i) 0); [lia|]. destruct (Z.ltb_spec (Z.of_nat i) 0); [lia|]. rewrite Nat2Z.id. reflexivity. Qed.
Lemma getz_map {A B} (f : A -> B) l i : getz (map f l) i = match getz l i with Ok x => Ok (f x) | Err e => Err e end.
Proof. unfold getz. rewrite map_length. cbv zeta. set (j := if (i <? 0)%Z then _ else _). destruct (j <? 0)%Z; [reflexivity|apply getn_map]. Qed.
Lemma place_nat i n : place (Z.of_nat i) n = if i <? n then Ok i else Err IndexError.
Proof. unfold place. destruct (Z.ltb_spec (Z.of_nat i) 0); [lia|]. destruct (Z.ltb_spec (Z.of_nat i) 0); [lia|]. rewrite Nat2Z.id. reflexivity. Qed.
Lemma clamp_nat i n : clamp (Z.of_nat i) n = Nat.min i n.
Proof. unfold clamp. destruct (Z.ltb_spec (Z.of_nat i) 0); [lia|]. rewrite Nat2Z.id. reflexivity. Qed.
Lemma eqz_nat a b : (Z.of_nat a =? Z.of_nat b)%Z = (a =? b).
Proof. destruct (Nat.eqb_spec a b), (Z.eqb_spec (Z.of_nat a) (Z.of_nat b)); lia || reflexivity. Qed.
Lemma ltz_nat a b : (Z.of_nat a <? Z.of_nat b)%Z = (a <? b).
Proof. destruct (Nat.ltb_spec a b), (Z.ltb_spec (Z.of_nat a) (Z.of_nat b)); lia || reflexivity. Qed.
Lemma lez_nat a b : (Z.of_nat a <=? Z.of_nat b)%Z = (a <=? b).
Proof. destruct (Nat.leb_spec a b), (Z.leb_spec (Z.of_nat a) (Z.of_nat b)); lia || reflexivity. Qed.
Lemma nzz_nat a : (Z.of_nat a =? 0)%Z = (a =? 0).
Proof. exact (eqz_nat a 0). Qed.
Lemma is_nil_map {A B} (f : A -> B) l : is_nil (map f l) = is_nil l.
Proof. destruct l; reflexivity. Qed.

(** Evaluate the head of the goal until a choice is left. *)
Ltac names := cbn [find put String.eqb Ascii.eqb Bool.eqb].
Ltac ev :=
  lazymatch goal with
  | |- wp (exec _ _ _ _ (SSeq _ _) _) _ _ => apply wp_seq
  | |- wp (exec _ _ _ _ (SIf _ _ _) _) _ _ => apply wp_if
  | |- wp (exec _ _ _ _ (SWhile _ _) _) _ _ => fail
  | |- wp (bind _ _) _ _ => apply wp_bind
  | |- wp (ret _) _ _ => apply wp_ret; cbv beta iota
  | |- wp (raise _) _ _ => apply wp_raise; cbv beta iota
  | |- wp (liftr _) _ _ => apply wp_lift; cbv beta iota delta [elt_of]
  | |- wp (load_at _) _ _ => apply wp_load; cbv beta iota; cbn [heap]
  | |- wp (store _ _) _ _ => apply wp_store; cbv beta iota; cbn [heap next attrs]
  | |- wp (alloc _) _ _ => apply wp_alloc; cbv beta iota; cbn [heap next attrs]
  | |- wp (set_attr _ _) _ _ => apply wp_set; cbv beta iota; cbn [heap next attrs put String.eqb Ascii.eqb Bool.eqb]
  | |- wp (get_attr _) _ _ => apply wp_get; cbn [attrs find String.eqb Ascii.eqb Bool.eqb]; cbv beta iota
  | |- wp ?m ?s ?Q =>
      let m' :=
        lazymatch m with
        | exec _ _ _ _ _ _ => eval cbn [exec] in m
        | eval _ _ _ _ _ => eval cbn [eval] in m
        | assign _ _ _ _ _ _ => eval cbn [assign put String.eqb Ascii.eqb Bool.eqb] in m
        | delete _ _ _ _ _ => eval cbn [delete] in m
        | new_list _ => eval cbv beta delta [new_list] in m
        | new_iter _ => eval cbv beta delta [new_iter] in m
        | truth _ => eval cbv beta iota delta [truth vnat] in m
        | match find _ _ with _ => _ end => eval cbn [find String.eqb Ascii.eqb Bool.eqb] in m
        | subscript _ _ => eval cbv beta iota delta [subscript vnat] in m
        | arith _ _ _ => eval cbv beta iota delta [arith vnat] in m
        | inplace _ _ _ => eval cbv beta iota delta [inplace vnat] in m
        | cmp _ _ _ _ _ => eval cbv beta iota delta [cmp cmpz vnat] in m
        | apply _ _ _ _ => eval cbn [apply builtin prim String.eqb Ascii.eqb Bool.eqb] in m
        | builtin _ _ _ => eval cbn [builtin prim append String.append String.eqb Ascii.eqb Bool.eqb] in m
        | slice_method _ _ _ => eval cbn [slice_method String.eqb Ascii.eqb Bool.eqb] in m
        | maybe_int _ => eval cbn [maybe_int vnat] in m
        | list_method _ _ _ _ => eval cbn [list_method String.eqb Ascii.eqb Bool.eqb] in m
        | int_of _ => eval cbn [int_of vnat] in m
        | elems _ => eval cbn [elems] in m
        | opt_int _ => eval cbn [opt_int] in m
        | match vnat _ with _ => _ end => eval cbv beta iota delta [vnat] in m
        | match _ with _ => _ end => eval cbv beta iota in m
        end in
      tryif constr_eq m m' then fail else change (wp m' s Q)
  end.

Lemma holds_eta {V} L X I (s : st V) c : holds L X I s c ->
  exists h nx, s = mkst h nx [("_len", vnat (len c)); ("_load", vnat (load c)); ("_lists", VList L);
                       ("_maxes", VList X); ("_index", VList I); ("_offset", vnat (offset c))].
Proof. intros [H _ _ _]. destruct s as [h nx a]. cbn in H. subst a. eauto. Qed.

Section Calls.
  Context {V : Type} (lt eq : V -> V -> res bool).
  Definition wrap (r : res (ctl V)) : res (val V) :=
    match r with Ok (Go _) => Ok VNone | Ok (Done v) => Ok v | Err e => Err e end.
  Lemma call_of n d m args ps b en s Q : lookup klass 100 m klass = Some (ps, b) ->
    (forall s, bind_params lt eq ps args [("self", VSelf)] s = (Ok en, s)) ->
    wp (exec lt eq (call lt eq klass n d) n b en) s (fun r s' => Q (wrap r) s') ->
    wp (call lt eq klass n (S d) m args) s Q.
  Proof.
    intros H1 H2 H. cbn [call]. rewrite H1. apply wp_bind. eapply wp_eq; [apply H2|]. cbv beta iota.
    apply wp_bind. eapply wp_mono; [exact H|]. intros [[]|] ? H'; exact H'.
  Qed.
End Calls.
Ltac enter := eapply call_of; [vm_compute; reflexivity|intros; cbn [bind_params app]; reflexivity|].

Notation slots ln ld L X I off :=
  [("_len", vnat ln); ("_load", vnat ld); ("_lists", VList L); ("_maxes", VList X); ("_index", VList I);
   ("_offset", vnat off)].

Definition rmap {A B} (f : A -> B) (r : res A) : res B := match r with Ok a => Ok (f a) | Err e => Err e end.

Lemma holds_inv {V} L X I (s : st V) c : holds L X I s c ->
  exists h nx ids, s = mkst h nx (slots (len c) (load c) L X I (offset c)) /\
    h X = map VElt (maxes c) /\ h I = map vnat (index c) /\ h L = map VList ids /\
    map h ids = map (map VElt) (lists c) /\ NoDup (L :: X :: I :: ids) /\ Forall (fun r => r < nx) (L :: X :: I :: ids).
Proof.
  intros [Ha Hx Hi (ids & Hl & Hm & Hd & Hf)]. destruct s as [h nx a]. cbn in *. subst a.
  exists h, nx, ids. auto 10.
Qed.
Lemma holds_mk {V} L X I h nx ids (c : core V V) ln ld off :
  ln = len c -> ld = load c -> off = offset c ->
  h X = map VElt (maxes c) -> h I = map vnat (index c) -> h L = map VList ids ->
  map h ids = map (map VElt) (lists c) -> NoDup (L :: X :: I :: ids) -> Forall (fun r => r < nx) (L :: X :: I :: ids) ->
  holds L X I (mkst h nx (slots ln ld L X I off)) c.
Proof. intros -> -> ->. intros. constructor; cbn; eauto 10. Qed.

Lemma sub_at {V} (h : nat -> list (val V)) ids (ls : list (list V)) p :
  map h ids = map (map VElt) ls ->
  match getn ls p with
  | Ok l => exists id, getn ids p = Ok id /\ h id = map VElt l
  | Err e => getn ids p = Err e
  end.
Proof.
  intros H. apply (f_equal (fun l => nth_error l p)) in H. rewrite !nth_error_map in H. unfold getn.
  destruct (nth_error ids p) as [id|], (nth_error ls p) as [l|]; cbn in H; try discriminate; [|reflexivity].
  injection H as H. eauto.
Qed.
Lemma ids_length {V} (h : nat -> list (val V)) ids (ls : list (list V)) :
  map h ids = map (map VElt) ls -> length ids = length ls.
Proof. intros H. apply (f_equal (@length _)) in H. rewrite !map_length in H. exact H. Qed.
Ltac refold := repeat match goal with |- context [fun n0 : nat => @VInt ?V (Z.of_nat n0)] =>
  change (fun n0 : nat => @VInt V (Z.of_nat n0)) with (@vnat V) end.
Ltac run := cbv beta iota; repeat ev; refold.
