(** * Facts about SortedLists on a heap *)
From Verif Require Import PyBase Model Spec History ModelHeap.
Local Unset Implicit Arguments.

Global Arguments cell : simpl never.
Lemma ok_inj {A} (x y : A) : Ok x = Ok y -> x = y.
Proof. congruence. Qed.

Lemma getn_In {A} (l : list A) i (x : A) : getn l i = Ok x -> In x l.
  Proof. unfold getn. destruct (nth_error l i) eqn:E; intros H; [|discriminate]. apply ok_inj in H as <-. eapply nth_error_In, E. Qed.
  Lemma getn_map {A B} (f : A -> B) l i : getn (map f l) i = (let! x := getn l i in Ok (f x)).
  Proof. unfold getn. rewrite nth_error_map. destruct (nth_error l i); reflexivity. Qed.

Section Cells.
  Context {V : Type}.
  Implicit Types (h : heap V) (r : ref) (x : list V).

  Lemma length_write h r x : length (write h r x) = length h.
  Proof. revert r. induction h as [|y h IH]; intros [|r]; cbn; auto. Qed.
  Lemma cell_write_same h r x : r < length h -> cell (write h r x) r = x.
  Proof. unfold cell. revert r. induction h as [|y h IH]; intros [|r] H; cbn in *; try lia; auto. apply IH. lia. Qed.
  Lemma cell_write_other h r q x : q <> r -> cell (write h r x) q = cell h q.
  Proof.
    unfold cell. revert r q. induction h as [|y h IH]; intros [|r] [|q] H; cbn; try reflexivity; try contradiction. apply IH. congruence.
  Qed.
  Lemma cell_app_old h xs r : r < length h -> cell (h ++ xs) r = cell h r.
  Proof. intros H. unfold cell. apply app_nth1. exact H. Qed.
  Lemma cell_app_new h x : cell (h ++ [x]) (length h) = x.
  Proof. unfold cell. rewrite app_nth2, Nat.sub_diag by lia. reflexivity. Qed.
  Lemma alloc_all_eq xs : forall h, alloc_all h xs = (seq (length h) (length xs), h ++ xs).
  Proof.
    induction xs as [|x xs IH]; intros h; cbn; [rewrite app_nil_r; reflexivity|].
    rewrite IH, app_length. cbn. rewrite Nat.add_1_r, <- app_assoc. reflexivity.
  Qed.
  Lemma cells_app_new xs : forall h, map (cell (h ++ xs)) (seq (length h) (length xs)) = xs.
  Proof.
    induction xs as [|x xs IH]; intros h; cbn; [reflexivity|]. f_equal.
    - unfold cell. rewrite app_nth2, Nat.sub_diag by lia. reflexivity.
    - specialize (IH (h ++ [x])). rewrite app_length, <- app_assoc in IH. cbn in IH. rewrite Nat.add_1_r in IH. exact IH.
  Qed.
  Lemma cells_same h h' rs : (forall r, In r rs -> cell h' r = cell h r) -> map (cell h') rs = map (cell h) rs.
  Proof. intros H. apply map_ext_in. exact H. Qed.

  Lemma updn_cell h rs pos f : NoDup rs -> Forall (fun r => r < length h) rs ->
    updn (map (cell h) rs) pos f =
    (let! p := getn rs pos in let! y := f (cell h p) in Ok (map (cell (write h p y)) rs)).
  Proof.
    intros HN HF. revert pos. induction rs as [|r rs IH]; intros [|pos]; cbn; try reflexivity.
    - inversion HF; subst. destruct (f (cell h r)) as [y|e]; cbn; [|reflexivity].
      rewrite cell_write_same by assumption. do 2 f_equal. symmetry. apply cells_same. intros q Hq. apply cell_write_other.
      inversion HN; subst. intros ->. contradiction.
    - inversion HF; inversion HN; subst. rewrite IH by assumption. change (getn (r :: rs) (S pos)) with (getn rs pos).
      destruct (getn rs pos) as [p|e] eqn:E; cbn; [|reflexivity]. destruct (f (cell h p)) as [y|e]; cbn; [|reflexivity].
      rewrite cell_write_other; [reflexivity|]. intros ->. apply getn_In in E. contradiction.
  Qed.

  Lemma length_reduce rs acc : forall h, length (reduce_iadd rs acc h) = length h.
  Proof. unfold reduce_iadd. induction rs as [|r rs IH]; intros h; cbn; [reflexivity|]. rewrite IH, length_write. reflexivity. Qed.
  Lemma reduce_other rs acc q : q <> acc -> forall h, cell (reduce_iadd rs acc h) q = cell h q.
  Proof.
    intros Hq. unfold reduce_iadd. induction rs as [|r rs IH]; intros h; cbn [fold_left]; [reflexivity|]. rewrite IH.
    apply cell_write_other. exact Hq.
  Qed.
  Lemma reduce_acc rs acc : ~ In acc rs -> forall h, acc < length h ->
    cell (reduce_iadd rs acc h) acc = cell h acc ++ concat (map (cell h) rs).
  Proof.
    unfold reduce_iadd. induction rs as [|r rs IH]; intros HI h Hl; cbn [fold_left map concat]; [rewrite app_nil_r; reflexivity|].
    rewrite IH; [|intros H; apply HI; right; exact H|rewrite length_write; exact Hl].
    rewrite cell_write_same by exact Hl. rewrite <- app_assoc. f_equal. f_equal. f_equal. apply cells_same. intros q Hq.
    apply cell_write_other. intros ->. apply HI. right. exact Hq.
  Qed.
End Cells.

(** ** Simulation of the value model by the heap model *)
Section Sim.
  Context {V : Type}.
  Notation ST := (heap V * hsl V)%type.

  Definition good (s : ST) : Prop := NoDup (rows (snd s)) /\ Forall (fun r => r < length (fst s)) (rows (snd s)).
  (** Of the first [n] lists only the object's own have changed, and of them no further ones are now its own. *)
  Definition framen (n : nat) (s s' : ST) : Prop :=
    length (fst s) <= length (fst s') /\
    (forall r, r < n -> ~ In r (rows (snd s)) -> cell (fst s') r = cell (fst s) r) /\
    (forall r, In r (rows (snd s')) -> In r (rows (snd s)) \/ n <= r).
  Definition frame (s s' : ST) : Prop := framen (length (fst s)) s s'.
  (** [hm] does what [m] does, and of the first [n] lists touches only the object's own. *)
  Definition sim {A B} (n : nat) (P : ST -> Prop) (R : A -> B -> ST -> Prop) (m : M (core V V) A) (hm : M ST B) : Prop :=
    forall s, good s -> n <= length (fst s) -> P s ->
      view (snd (hm s)) = snd (m (view s)) /\ good (snd (hm s)) /\ framen n s (snd (hm s)) /\
      match fst (m (view s)), fst (hm s) with
      | Ok a, Ok b => R a b (snd (hm s))
      | Err e, Err e' => e = e'
      | _, _ => False
      end.

  Lemma frame_refl n s : framen n s s.
  Proof. split; [lia|]. split; [reflexivity|]. intros r H. left. exact H. Qed.
  Lemma frame_trans n s1 s2 s3 : framen n s1 s2 -> framen n s2 s3 -> framen n s1 s3.
  Proof.
    intros (L1 & C1 & R1) (L2 & C2 & R2). split; [lia|]. split.
    - intros r Hr Hn. rewrite C2; [apply C1; assumption|lia|]. intros H. destruct (R1 r H); [contradiction|lia].
    - intros r H. destruct (R2 r H) as [H'|H']; [apply R1, H'|right; lia].
  Qed.
  Lemma frame_le n k s s' : n <= k -> framen k s s' -> framen n s s'.
  Proof.
    intros H (L & C & R). split; [exact L|]. split; [intros r Hr; apply C; lia|]. intros r Hr. destruct (R r Hr); [left; assumption|right; lia].
  Qed.

  Lemma sim_weaken {A B} n (P P' : ST -> Prop) (R R' : A -> B -> ST -> Prop) m hm :
    (forall s, P' s -> P s) -> (forall a b s, R a b s -> R' a b s) -> sim n P R m hm -> sim n P' R' m hm.
  Proof.
    intros HP HR H s HG Hn Hs. destruct (H s HG Hn (HP s Hs)) as (E & G & F & X). split; [exact E|]. split; [exact G|]. split; [exact F|].
    destruct (fst (m (view s))), (fst (hm s)); auto.
  Qed.
  Lemma sim_bind {A B A' B'} n (P : ST -> Prop) (R : A -> B -> ST -> Prop) (Q : A' -> B' -> ST -> Prop) m hm k hk :
    sim n P R m hm -> (forall a b, sim n (R a b) Q (k a) (hk b)) -> sim n P Q (bind m k) (bind hm hk).
  Proof.
    intros H1 H2 s HG Hn Hs. specialize (H1 s HG Hn Hs). unfold bind. destruct (m (view s)) as [r c], (hm s) as [r' s']. cbn in H1.
    destruct H1 as (E & G & F & X). destruct r as [a|e], r' as [b|e']; try contradiction.
    - subst c. destruct (H2 a b s' G ltac:(destruct F; lia) X) as (E' & G' & F' & X'). split; [exact E'|]. split; [exact G'|].
      split; [eapply frame_trans; eassumption|exact X'].
    - cbn. split; [exact E|]. split; [exact G|]. split; [exact F|exact X].
  Qed.
  Definition stable (Q : ST -> Prop) : Prop := forall s s', good s -> frame s s' -> Q s -> Q s'.
  Lemma sim_frame {A B} n (P Q : ST -> Prop) (R : A -> B -> ST -> Prop) m hm :
    stable Q -> (forall k, sim k P R m hm) -> sim n (fun s => P s /\ Q s) (fun a b s => R a b s /\ Q s) m hm.
  Proof.
    intros HQ H s HG Hn [HP Hs]. destruct (H (length (fst s)) s HG (le_n _) HP) as (E & G & F & X). split; [exact E|]. split; [exact G|].
    split; [eapply frame_le; [exact Hn|exact F]|]. pose proof (HQ _ _ HG F Hs). destruct (fst (m (view s))), (fst (hm s)); auto.
  Qed.
  (** A method is looked at from its own start. *)
  Lemma sim_start {A B} n (P : ST -> Prop) (R : A -> B -> ST -> Prop) m hm :
    (forall k, sim k P R m hm) -> sim n P R m hm.
  Proof. intros H. apply H. Qed.

  Definition any : ST -> Prop := fun _ => True.
  Definition same {A} : A -> A -> ST -> Prop := fun a b _ => a = b.
  Local Notation sim0 m hm := (forall n, sim n any same m hm).

  Lemma simn_bind {A A' B'} n (Q : A' -> B' -> ST -> Prop) (m : M (core V V) A) hm k hk :
    sim n any same m hm -> (forall a, sim n any Q (k a) (hk a)) -> sim n any Q (bind m k) (bind hm hk).
  Proof.
    intros H1 H2. eapply sim_bind; [exact H1|]. intros a b s HG Hn E. unfold same in E. subst b. exact (H2 a s HG Hn I).
  Qed.
  Lemma sim0_bind {A B} (m : M (core V V) A) hm (k : A -> M (core V V) B) hk :
    sim0 m hm -> (forall a, sim0 (k a) (hk a)) -> sim0 (bind m k) (bind hm hk).
  Proof. intros H1 H2 n. apply simn_bind; [apply H1|]. intros a. apply H2. Qed.
  (** A method is called while a condition on other lists holds. *)
  Lemma simP_bind {A A' B'} n (P : ST -> Prop) (Q : A' -> B' -> ST -> Prop) (m : M (core V V) A) hm k hk :
    stable P -> sim0 m hm -> (forall a, sim n P Q (k a) (hk a)) -> sim n P Q (bind m k) (bind hm hk).
  Proof.
    intros HS H1 H2. eapply sim_bind with (R := fun a b s => same a b s /\ P s).
    - eapply sim_weaken; [| |apply (sim_frame n any P _ _ _ HS H1)]; [intros s H; split; [exact I|exact H]|auto].
    - intros a b s HG Hn [E HP]. unfold same in E. subst b. exact (H2 a s HG Hn HP).
  Qed.
  Lemma sim_any {A B} n (P : ST -> Prop) (R : A -> B -> ST -> Prop) m hm : sim n any R m hm -> sim n P R m hm.
  Proof. intros H s HG Hn _. exact (H s HG Hn I). Qed.
  Lemma sim_point {A B} n (P : ST -> Prop) (R : A -> B -> ST -> Prop) m m' hm hm' :
    (forall c, m c = m' c) -> (forall s, hm s = hm' s) -> sim n P R m' hm' -> sim n P R m hm.
  Proof. intros E1 E2 H s HG Hn HP. rewrite E1, E2. exact (H s HG Hn HP). Qed.

  Lemma sim_liftr {A} (r : res A) : sim0 (liftr r) (liftr r).
  Proof.
    intros n s HG _ _. cbn. split; [reflexivity|]. split; [exact HG|]. split; [apply frame_refl|]. destruct r; reflexivity.
  Qed.
  Lemma sim_ret {A} (a : A) : sim0 (ret a) (ret a).
  Proof. apply (sim_liftr (Ok a)). Qed.
  Lemma sim_raise {A} e : sim0 (raise (A:=A) e) (raise e).
  Proof. apply (sim_liftr (Err e)). Qed.
  Lemma sim_modifyR {B} n (P : ST -> Prop) (R : unit -> B -> ST -> Prop) f (hm : M ST B) :
    (forall s, good s -> n <= length (fst s) -> P s ->
       match f (view s), hm s with
       | Ok c, (Ok b, s') => view s' = c /\ good s' /\ framen n s s' /\ R tt b s'
       | Err e, (Err e', s') => e = e' /\ s' = s
       | _, _ => False
       end) -> sim n P R (modifyR f) hm.
  Proof.
    intros H s HG Hn HP. specialize (H s HG Hn HP). unfold modifyR. destruct (f (view s)) as [c|e], (hm s) as [[b|e'] s']; cbn; try contradiction.
    - exact H.
    - destruct H as [-> ->]. split; [reflexivity|]. split; [exact HG|]. split; [apply frame_refl|reflexivity].
  Qed.

  (** ** Methods that only read the lists *)
  Definition keeps {A} (m : M (core V V) A) : Prop := forall c, lists (snd (m c)) = lists c.
  Lemma view_put c (s : ST) : lists c = lists (view s) -> view (put c s) = c.
  Proof. destruct s as [h o], c. cbn. intros ->. reflexivity. Qed.
  Lemma sim_reading {A} (m : M (core V V) A) : keeps m -> sim0 m (reading m).
  Proof.
    intros H n s HG _ _. unfold reading, zoom. specialize (H (view s)). destruct (m (view s)) as [r c]. cbn in *.
    split; [apply view_put, H|]. destruct s as [h o]. split; [exact HG|]. split; [|destruct r; reflexivity].
    split; [cbn; lia|]. split; [reflexivity|]. intros r' Hr. left. exact Hr.
  Qed.
  Lemma reading_rows {A} (m : M (core V V) A) s : rows (snd (snd (reading m s))) = rows (snd s) /\ fst (snd (reading m s)) = fst s.
  Proof. unfold reading, zoom. destruct (m (view s)) as [r c], s as [h o]. split; reflexivity. Qed.

  Lemma keeps_bind {A B} (m : M (core V V) A) (k : A -> M (core V V) B) : keeps m -> (forall a, keeps (k a)) -> keeps (bind m k).
  Proof.
    intros H1 H2 c. unfold bind. specialize (H1 c). destruct (m c) as [[a|e] c']; cbn in *; [|exact H1]. rewrite H2. exact H1.
  Qed.
  Lemma keeps_ret {A} (a : A) : keeps (ret a). Proof. intros c. reflexivity. Qed.
  Lemma keeps_raise {A} e : keeps (raise (A:=A) e). Proof. intros c. reflexivity. Qed.
  Lemma keeps_liftr {A} (r : res A) : keeps (liftr r). Proof. intros c. reflexivity. Qed.
  Lemma keeps_get : keeps get. Proof. intros c. reflexivity. Qed.
  Lemma keeps_modify f : (forall c, lists (f c) = lists c) -> keeps (modify f).
  Proof. intros H c. apply H. Qed.
  Lemma keeps_modifyR f : (forall c c', f c = Ok c' -> lists c' = lists c) -> keeps (modifyR f).
  Proof. intros H c. unfold modifyR. destruct (f c) as [c'|e] eqn:E; cbn; [apply H, E|reflexivity]. Qed.
  Lemma keeps_mapM {A B} (f : A -> M (core V V) B) l : (forall a, keeps (f a)) -> keeps (mapM f l).
  Proof.
    intros H. induction l as [|a l IH]; cbn; [apply keeps_ret|]. apply keeps_bind; [apply H|]. intros b.
    apply keeps_bind; [exact IH|]. intros bs. apply keeps_ret.
  Qed.
  Lemma keeps_build : keeps build_index.
  Proof.
    apply keeps_modifyR. intros c c' H. cbv zeta in H.
    destruct (length (map (@length V) (lists c)) =? 1).
    - apply ok_inj in H as <-. reflexivity.
    - destruct (if Nat.odd _ then _ else _) as [row1|e]; [|discriminate]. cbn [rbind] in H.
      destruct (length row1 =? 1); [apply ok_inj in H as <-; reflexivity|].
      destruct (length row1 =? 0); [discriminate|]. destruct (build_index_sized _ _ _) as [p|e]; [|discriminate].
      cbn [rbind] in H. apply ok_inj in H as <-. reflexivity.
  Qed.
End Sim.
Notation sim0 m hm := (forall n, sim n any same m hm).

Ltac keep :=
  cbv zeta;
  first [ assumption | apply keeps_ret | apply keeps_raise | apply keeps_liftr | apply keeps_get | apply keeps_build
        | match goal with H : forall _, keeps _ |- _ => apply H | H : forall _ _, keeps _ |- _ => apply H end
        | apply keeps_bind; [keep|intros; keep]
        | apply keeps_mapM; intros; keep
        | match goal with |- keeps (match ?x with _ => _ end) => destruct x; keep end ].

Section Readers.
  Context {V : Type}.
  Variables lt eq : V -> V -> res bool.
  Lemma keeps_ensure : keeps (V:=V) ensure_index.
  Proof. unfold ensure_index. keep. Qed.
  Lemma keeps_loc pos idx : keeps (V:=V) (loc pos idx).
  Proof. pose proof keeps_ensure. unfold loc. keep. Qed.
  Lemma keeps_pos i : keeps (V:=V) (pos_of i).
  Proof. pose proof keeps_ensure. unfold pos_of, pos_nonneg, pos_tree. keep. Qed.
  Lemma keeps_getitem i : keeps (V:=V) (getitem_int i).
  Proof. pose proof keeps_pos. unfold getitem_int. keep. Qed.
  Lemma keeps_islice a b r : keeps (V:=V) (islice a b r).
  Proof. pose proof keeps_pos. unfold islice. keep. Qed.
  Lemma keeps_contains v : keeps (sl_contains lt eq v).
  Proof. unfold sl_contains. keep. Qed.
  Lemma keeps_bisect_left v : keeps (sl_bisect_left lt v).
  Proof. pose proof keeps_loc. unfold sl_bisect_left. keep. Qed.
  Lemma keeps_bisect_right v : keeps (sl_bisect_right lt v).
  Proof. pose proof keeps_loc. unfold sl_bisect_right. keep. Qed.
  Lemma keeps_count v : keeps (sl_count lt v).
  Proof. pose proof keeps_loc. unfold sl_count. keep. Qed.
  Lemma keeps_index v a b : keeps (sl_index lt eq v a b).
  Proof. pose proof keeps_loc. pose proof keeps_bisect_right. unfold sl_index. keep. Qed.
  Lemma keeps_irange mn mx a b r : keeps (sl_irange lt mn mx a b r).
  Proof. unfold sl_irange. keep. Qed.
  Lemma keeps_compare op o : keeps (compare (K:=V) lt eq op o).
  Proof. unfold compare. keep. Qed.
  Lemma keeps_index_inc pos : keeps (modifyR (fun c : core V V => index_inc c pos)).
  Proof.
    apply keeps_modifyR. intros c c'. unfold index_inc. destruct (is_nil _); [intros H; apply ok_inj in H as <-; reflexivity|].
    destruct (index_walk _ _ _); [|discriminate]. cbn. intros H. apply ok_inj in H as <-. reflexivity.
  Qed.
  Lemma keeps_index_dec pos : keeps (modifyR (fun c : core V V => index_dec c pos)).
  Proof.
    apply keeps_modifyR. intros c c'. unfold index_dec. destruct (is_nil _); [intros H; apply ok_inj in H as <-; reflexivity|].
    destruct (index_walk _ _ _); [|discriminate]. cbn. intros H. apply ok_inj in H as <-. reflexivity.
  Qed.
End Readers.
