(** Proofs about members when memory runs out. *)

From Coq Require Import ZArith List Bool Lia.
From Verif Require Import Base Scalar Spec Dense Sparse Coo Lil LoopFacts DenseFacts Alloc AllocSpec.
Import ListNotations.
Open Scope Z_scope.

(* ------------------------------------------- calls that only read the object *)

Definition reads {St A : Type} (x : act St A) (r : St -> res A) : Prop :=
  (forall m n s, match x m n s with
                 | Done a s' _ => s' = s /\ r s = Ok a
                 | BadAlloc s' _ => s' = s
                 | Failed e => r s = Fail e
                 | Terminated => False
                 end) /\
  (forall m n s s' n', ample m -> x m n s <> BadAlloc s' n').

Lemma reads_ret {St A} (a : A) : reads (St := St) (a_ret a) (fun _ => Ok a).
Proof. split; cbn; [auto|discriminate]. Qed.

Lemma reads_this {St} : reads (St := St) a_this (fun s => Ok s).
Proof. split; cbn; [auto|discriminate]. Qed.

Lemma reads_lift {St A} (x : res A) : reads (St := St) (a_lift x) (fun _ => x).
Proof. split; unfold a_lift; intros; destruct x; auto; discriminate. Qed.

Lemma reads_request {St} k : reads (St := St) (a_request k) (fun _ => Ok tt).
Proof.
  split; unfold a_request; intros; destruct (k <=? 0); auto; try discriminate.
  - destruct (m n); auto.
  - rewrite H. discriminate.
Qed.

Lemma reads_bind {St A B} (x : act St A) r (f : A -> act St B) g :
  reads x r -> (forall a, reads (f a) (g a)) -> reads (a_bind x f) (fun s => a <- r s ;; g a s).
Proof.
  intros [X X'] F. split.
  - intros m n s. unfold a_bind. specialize (X m n s). destruct (x m n s) as [a s' k|s' k|e|]; auto.
    + destruct X as [-> ->]. cbn [bind]. apply F.
    + rewrite X. reflexivity.
  - intros m n s s' n' Hm. unfold a_bind. specialize (X' m n s). destruct (x m n s) as [a s1 k|s1 k|e|]; try discriminate.
    + now apply F.
    + exfalso. now apply (X' s1 k).
Qed.

Lemma reads_ext {St A} (x : act St A) r r' : reads x r -> (forall s, r s = r' s) -> reads x r'.
Proof. intros [X X'] E. split; [|exact X']. intros m n s. specialize (X m n s). rewrite E in X. exact X. Qed.

Lemma reads_vec {St X} k (a : X) : reads (St := St) (a_vec k a) (fun _ => vec k a).
Proof.
  eapply reads_ext.
  - unfold a_vec. apply reads_bind; [apply reads_lift|]. intros v. apply reads_bind; [apply reads_request|]. intros w. apply reads_ret.
  - intros s. cbn. now destruct (vec k a).
Qed.

Lemma reads_push {St X} (v : list X) (a : X) : reads (St := St) (a_push v a) (fun _ => Ok (v ++ [a])).
Proof.
  eapply reads_ext; [apply reads_bind; [apply reads_request|intros w; apply reads_ret]|]. reflexivity.
Qed.

Lemma reads_grow {St} l k : reads (St := St) (a_grow l k) (fun _ => Ok tt).
Proof. unfold a_grow. destruct (l <? k); [apply reads_request|apply reads_ret]. Qed.

Lemma reads_fold {St X A} (f : A -> X -> act St A) (g : A -> X -> res A) l a :
  (forall a x, reads (f a x) (fun _ => g a x)) -> reads (a_fold f l a) (fun _ => foldM g l a).
Proof.
  intros F. revert a. induction l as [|x l IH]; intros a; cbn; [apply reads_ret|].
  apply (reads_bind (f a x) (fun _ => g a x) (fun a => a_fold f l a) (fun a _ => foldM g l a)); auto.
Qed.

Lemma reads_for {St A} lo hi (a : A) (f : Z -> A -> act St A) g :
  (forall i a, reads (f i a) (fun _ => g i a)) -> reads (a_for lo hi a f) (fun _ => for_ lo hi a g).
Proof. intros F. unfold a_for, for_. apply reads_fold. intros a' i. apply F. Qed.

(* ------------------------------------------- calls that write at the end *)

Lemma aon_ext {St} (x : act St unit) f g : all_or_nothing x f -> (forall s, f s = g s) -> all_or_nothing x g.
Proof. intros [X X'] E. split; [|exact X']. intros m n s. specialize (X m n s). rewrite E in X. exact X. Qed.

Lemma aon_bind {St A} (x : act St A) r (f : A -> act St unit) g :
  reads x r -> (forall a, all_or_nothing (f a) (g a)) -> all_or_nothing (a_bind x f) (fun s => a <- r s ;; g a s).
Proof.
  intros [X X'] F. split.
  - intros m n s. unfold a_bind. specialize (X m n s). destruct (x m n s) as [a s' k|s' k|e|]; auto.
    + destruct X as [-> ->]. cbn [bind]. apply F.
    + rewrite X. reflexivity.
  - intros m n s s' n' Hm. unfold a_bind. specialize (X' m n s). destruct (x m n s) as [a s1 k|s1 k|e|]; try discriminate.
    + now apply F.
    + exfalso. now apply (X' s1 k).
Qed.

Lemma aon_write {St} (w : St) : all_or_nothing (a_write w) (fun _ => Ok w).
Proof. split; cbn; [auto|discriminate]. Qed.

Lemma aon_write2 {St} (u w : St) : all_or_nothing (a_write u #;; a_write w) (fun _ => Ok w).
Proof. split; cbn; [auto|discriminate]. Qed.

Lemma aon_write3 {St} (t u w : St) : all_or_nothing (a_write t #;; a_write u #;; a_write w) (fun _ => Ok w).
Proof. split; cbn; [auto|discriminate]. Qed.

Lemma aon_in_place {St} (f : St -> res St) : all_or_nothing (a_in_place f) f.
Proof.
  eapply aon_ext.
  - unfold a_in_place. apply aon_bind; [apply reads_this|]. intros s. apply aon_bind; [apply reads_lift|]. intros s'. apply aon_write.
  - intros s. cbn. now destruct (f s).
Qed.

(** A run that catches every exception is the run of the calls that returned. *)
Lemma run_caught_ok {St X} (calls : list X) (call : X -> act St unit) (f : St -> X -> res St) :
  (forall e, all_or_nothing (call e) (fun s => f s e)) ->
  forall m n s, match run_caught (map call calls) m n s with
    | Done flags s' _ => length flags = length calls /\ foldM f (chosen calls flags) s = Ok s' /\
                         (ample m -> flags = map (fun _ => true) calls)
    | BadAlloc _ _ => False
    | Failed e => exists before e0 after flags s0, calls = before ++ e0 :: after /\ length flags = length before /\
                    foldM f (chosen before flags) s = Ok s0 /\ f s0 e0 = Fail e
    | Terminated => False
    end.
Proof.
  intros H. induction calls as [|x calls IH]; intros m n s; cbn [map run_caught]; [cbn; auto|].
  destruct (H x) as [H1 H2]. specialize (H1 m n s). specialize (H2 m n s).
  destruct (call x m n s) as [a s1 k|s1 k|e|]; auto.
  - specialize (IH m k s1). destruct (run_caught (map call calls) m k s1) as [l s2 k2|s2 k2|e|]; auto.
    + destruct IH as (I1 & I2 & I3). cbn. rewrite H1. cbn. split; [lia|]. split; [auto|]. intros A. f_equal; auto.
    + destruct IH as (b & e0 & af & fl & s0 & -> & I2 & I3 & I4). exists (x :: b), e0, af, (true :: fl), s0.
      cbn. rewrite H1. cbn. auto.
  - subst s1. specialize (IH m k s). destruct (run_caught (map call calls) m k s) as [l s2 k2|s2 k2|e|]; auto.
    + destruct IH as (I1 & I2 & I3). cbn. split; [lia|]. split; [auto|]. intros A. exfalso. now apply (H2 s k).
    + destruct IH as (b & e0 & af & fl & s0 & -> & I2 & I3 & I4). exists (x :: b), e0, af, (false :: fl), s0.
      cbn. auto.
  - exists [], x, calls, [], s. cbn. auto.
Qed.

Section AllocProofs.
Context {S : scalar}.
Notation T := (car S).

(* ------------------------------------------------------------ SparseMatrix *)

Lemma sort_aon srt : all_or_nothing (a_sort srt) (fun A : csr S => sp_sort srt A).
Proof.
  eapply aon_ext.
  - unfold a_sort. apply aon_bind; [apply reads_this|]. intros A.
    apply aon_bind; [apply reads_request|]. intros ?u.
    apply aon_bind; [apply reads_lift|]. intros p.
    apply aon_bind; [apply reads_request|]. intros ?u.
    apply aon_bind; [apply reads_request|]. intros ?u.
    apply aon_bind; [apply reads_lift|]. intros ix.
    apply aon_bind; [apply reads_lift|]. intros d.
    apply aon_write2.
  - intros A. reflexivity.
Qed.

Lemma elim_zeros_aon tol : all_or_nothing (a_elim_zeros tol) (fun A : csr S => sp_elim_zeros A tol).
Proof.
  eapply aon_ext.
  - unfold a_elim_zeros. apply aon_bind; [apply reads_this|]. intros A.
    apply aon_bind; [apply reads_vec|]. intros ip.
    apply aon_bind; [apply reads_grow|]. intros ?u.
    apply aon_bind; [apply reads_grow|]. intros ?u.
    apply aon_bind; [apply reads_grow|]. intros ?u.
    apply aon_bind with (g := fun x _ => let '(ip, ix, d) := x in Ok (CSR (c_rows A) (c_cols A) ip ix d)).
    2:{ intros [[ip' ix] d]. apply aon_write3. }
    apply reads_for with (g := fun i st =>
      lo <- get (c_ptr A) i ;; hi <- get (c_ptr A) (i + 1) ;;
      '(ip, ix, d) <- for_ lo hi st (fun j st =>
          let '(ip, ix, d) := st in
          v <- get (c_val A) j ;;
          if slt tol (sabs v)
          then c <- get (c_idx A) j ;; Ok (ip, ix ++ [c], d ++ [v])
          else Ok (ip, ix, d)) ;;
      Ok (ip ++ [zlen ix], ix, d)).
    intros i st.
    apply (reads_bind (a_lift (get (c_ptr A) i)) (fun _ => get (c_ptr A) i)); [apply reads_lift|]. intros lo.
    apply (reads_bind (a_lift (get (c_ptr A) (i + 1))) (fun _ => get (c_ptr A) (i + 1))); [apply reads_lift|]. intros hi.
    eapply (reads_bind _ (fun _ => for_ lo hi st _) _ (fun x _ => let '(ip, ix, d) := x in Ok (ip ++ [zlen ix], ix, d))).
    + apply reads_for. intros j [[ip1 ix] d].
      apply (reads_bind (a_lift (get (c_val A) j)) (fun _ => get (c_val A) j)); [apply reads_lift|]. intros v.
      destruct (slt tol (sabs v)); [|apply reads_ret].
      apply (reads_bind (a_lift (get (c_idx A) j)) (fun _ => get (c_idx A) j)); [apply reads_lift|]. intros c.
      eapply reads_ext.
      * apply reads_bind; [apply reads_push|]. intros ix'. apply reads_bind; [apply reads_push|]. intros d'. apply reads_ret.
      * reflexivity.
    + intros [[ip1 ix] d]. eapply reads_ext.
      * apply reads_bind; [apply reads_push|]. intros ip'. apply reads_ret.
      * reflexivity.
  - intros A. cbn [bind]. unfold vec. cbn [Z.ltb Z.compare Z.to_nat Pos.to_nat Pos.iter_op Nat.add repeat bind].
    unfold sp_elim_zeros. reflexivity.
Qed.

Lemma edits_ok (srt : sorter) (edits : list (edit (S := S))) m n (A : csr S) :
  match run_caught (map (call_of srt) edits) m n A with
  | Done flags A' _ => length flags = length edits /\ foldM (edited srt) (chosen edits flags) A = Ok A' /\
                       (ample m -> flags = map (fun _ => true) edits)
  | BadAlloc _ _ => False
  | Failed e => exists before e0 after flags A0, edits = before ++ e0 :: after /\ length flags = length before /\
                  foldM (edited srt) (chosen before flags) A = Ok A0 /\ edited srt A0 e0 = Fail e
  | Terminated => False
  end.
Proof.
  apply run_caught_ok. intros e. destruct e; cbn [call_of]; try apply aon_in_place.
  - apply sort_aon.
  - apply elim_zeros_aon.
Qed.

(* ------------------------------------------------------------- DenseMatrix *)

Lemma resize_same {A} (l : list A) n v : zlen l = n -> resize l n v = l.
Proof.
  intros H. unfold resize, zlen in *. rewrite firstn_all2 by lia. replace (Z.to_nat n - length l)%nat with 0%nat by lia.
  cbn. now rewrite app_nil_r.
Qed.

Lemma zlen_resize {A} (l : list A) n v : 0 <= n -> zlen (resize l n v) = n.
Proof. intros H. unfold resize, zlen in *. rewrite app_length, firstn_length, repeat_length. lia. Qed.

Lemma a_set_size_out (D : dense S) r c m n :
  a_set_size r c m n D =
  (if (0 <=? r) && (0 <=? c)
   then if (zlen (d_data D) <? r * c) && negb (m n) then BadAlloc (Dense r c (d_data D)) (Datatypes.S n)
        else Done tt (Dense r c (resize (d_data D) (r * c) s0)) (if zlen (d_data D) <? r * c then Datatypes.S n else n)
   else Failed FAssert).
Proof.
  unfold a_set_size, a_bind, a_lift, a_this, a_write, a_grow, a_request, a_ret.
  destruct (0 <=? r); cbn [assert_ andb]; [|reflexivity]. destruct (0 <=? c); cbn [assert_]; [|reflexivity].
  destruct (Z.ltb_spec (zlen (d_data D)) (r * c)); cbn [andb negb]; [|reflexivity].
  pose proof (zlen_nonneg (d_data D)). destruct (Z.leb_spec (r * c) 0); [lia|]. destruct (m n); reflexivity.
Qed.

Lemma set_size_broken (D : dense S) r c m n :
  0 <= r -> 0 <= c -> zlen (d_data D) < r * c -> m n = false ->
  exists D' n', a_set_size r c m n D = BadAlloc D' n' /\ d_rows D' = r /\ d_cols D' = c /\
    in_range D' (r - 1) (c - 1) = true /\ d_get D' (r - 1) (c - 1) = Fail FUB.
Proof.
  intros Hr Hc Hl Hm. pose proof (zlen_nonneg (d_data D)).
  assert (0 < r /\ 0 < c) as [Hr1 Hc1] by nia.
  exists (Dense r c (d_data D)), (Datatypes.S n). rewrite a_set_size_out, Hm.
  destruct (Z.leb_spec 0 r), (Z.leb_spec 0 c); try lia. destruct (Z.ltb_spec (zlen (d_data D)) (r * c)); [|lia].
  cbn [andb negb]. split; [reflexivity|]. split; [reflexivity|]. split; [reflexivity|].
  assert (E : in_range (Dense r c (d_data D)) (r - 1) (c - 1) = true).
  { unfold in_range. cbn [d_rows d_cols]. destruct (Z.leb_spec 0 (r - 1)), (Z.leb_spec 0 (c - 1)), (Z.ltb_spec (r - 1) r), (Z.ltb_spec (c - 1) c); cbn; lia. }
  split; [exact E|]. unfold d_get. rewrite E. cbn [assert_ bind d_data d_rows]. apply get_out. nia.
Qed.

Lemma set_size_idem (D : dense S) r c : (D1 <- d_set_size D r c ;; d_set_size D1 r c) = d_set_size D r c.
Proof.
  unfold d_set_size. destruct (Z.leb_spec 0 r); cbn [assert_ bind]; [|reflexivity].
  destruct (Z.leb_spec 0 c); cbn [assert_ bind d_data]; [|reflexivity].
  rewrite (resize_same (resize _ _ _)); [reflexivity|]. apply zlen_resize. nia.
Qed.

(** What holds after a failed call with an output argument: its data is as before, so that it works when tried again, and
    SetSize to the sizes it had, for which no memory is needed, gives the output back. *)
Lemma output_ok (f : dense S -> res (dense S)) r c : sizes_output r c f ->
  forall m n D,
  match a_output r c f m n D with
  | Done _ D' _ => f D = Ok D'
  | BadAlloc D' n' => d_rows D' = r /\ d_cols D' = c /\ d_data D' = d_data D /\ f D' = f D /\
      (dense_ok D -> forall m' k, a_set_size (d_rows D) (d_cols D) m' k D' = Done tt D k)
  | Failed e => f D = Fail e
  | Terminated => False
  end /\ (ample m -> forall D' n', a_output r c f m n D <> BadAlloc D' n').
Proof.
  intros F m n D. unfold a_output, a_bind. rewrite a_set_size_out.
  assert (FD : f D = (out <- d_set_size D r c ;; f out)) by apply F.
  unfold d_set_size in FD.
  destruct (0 <=? r) eqn:Er; cbn [andb assert_ bind] in *.
  2:{ split; [exact FD|]. intros; discriminate. }
  destruct (0 <=? c) eqn:Ec; cbn [andb assert_ bind] in *.
  2:{ split; [exact FD|]. intros; discriminate. }
  destruct (zlen (d_data D) <? r * c) eqn:El; cbn [andb].
  - destruct (m n) eqn:Em; cbn [negb].
    + unfold a_in_place, a_bind, a_this, a_lift, a_write. rewrite FD.
      destruct (f (Dense r c (resize (d_data D) (r * c) s0))) as [D2|e]; (split; [reflexivity|discriminate]).
    + split.
      * cbn [d_rows d_cols d_data]. split; [reflexivity|]. split; [reflexivity|]. split; [reflexivity|]. split.
        { rewrite (F (Dense r c (d_data D))), (F D). unfold d_set_size. reflexivity. }
        intros (O1 & O2 & O3) m' k. rewrite a_set_size_out. cbn [d_data].
        destruct (Z.leb_spec 0 (d_rows D)), (Z.leb_spec 0 (d_cols D)); try lia. cbn [andb].
        rewrite O3. rewrite Z.ltb_irrefl. cbn [andb]. rewrite resize_same by exact O3. now destruct D.
      * intros A. rewrite A in Em. discriminate.
  - unfold a_in_place, a_bind, a_this, a_lift, a_write. rewrite FD.
    destruct (f (Dense r c (resize (d_data D) (r * c) s0))) as [D2|e]; (split; [reflexivity|discriminate]).
Qed.

Lemma sized (g : dense S -> res (dense S)) r c :
  sizes_output r c (fun out => out <- d_set_size out r c ;; g out).
Proof.
  intros out. pose proof (set_size_idem out r c) as E. destruct (d_set_size out r c) as [D1|e]; cbn [bind] in *; [|reflexivity].
  now rewrite E.
Qed.

Lemma sized_transpose (D : dense S) : sizes_output (d_cols D) (d_rows D) (d_transpose_into D).
Proof. apply sized. Qed.
Lemma sized_to_dense (A : csr S) : sizes_output (c_rows A) (c_cols A) (sp_to_dense_into A).
Proof. apply sized. Qed.
Lemma sized_transpose_dense (A : csr S) : sizes_output (c_cols A) (c_rows A) (sp_transpose_dense_into A).
Proof. apply sized. Qed.
Lemma sized_coo (M : coo S) : sizes_output (fst (coo_find_size M)) (snd (coo_find_size M)) (coo_to_dense_into M).
Proof. unfold coo_to_dense_into. destruct (coo_find_size M) as [r c]. apply sized. Qed.
Lemma sized_mult (A : csr S) X : d_rows X = c_cols A -> sizes_output (c_rows A) (d_cols X) (sp_mult_dense A X).
Proof. intros E out. unfold sp_mult_dense. rewrite E, Z.eqb_refl. cbn [assert_ bind]. apply (sized (fun out => for_ 0 (d_cols X) (d_fill out s0) _)). Qed.
Lemma sized_multAT (A : csr S) X : d_rows X = c_rows A -> sizes_output (c_cols A) (d_cols X) (sp_multAT_dense A X).
Proof. intros E out. unfold sp_multAT_dense. rewrite E, Z.eqb_refl. cbn [assert_ bind]. apply (sized (fun out => for_ 0 (d_cols X) (d_fill out s0) _)). Qed.

Lemma call_ok (f : dense S -> res (dense S)) r c : sizes_output r c f -> output_call r c f (a_output r c f).
Proof.
  intros H m n D. pose proof (output_ok f r c H m n D) as (K & _). destruct (a_output r c f m n D) as [u D' n'|D' n'|e|]; try exact K.
  destruct K as (K1 & K2 & K3 & K4 & _). auto.
Qed.
Lemma output_calls (D X : dense S) (A : csr S) (M : coo S) :
  output_call (d_cols D) (d_rows D) (d_transpose_into D) (a_transpose D) /\
  output_call (c_rows A) (c_cols A) (sp_to_dense_into A) (a_to_dense A) /\
  output_call (fst (coo_find_size M)) (snd (coo_find_size M)) (coo_to_dense_into M) (a_coo_to_dense M) /\
  output_call (c_rows A) (d_cols X) (sp_mult_dense A X) (a_mult_dense A X) /\
  output_call (c_cols A) (d_cols X) (sp_multAT_dense A X) (a_multAT_dense A X).
Proof.
  split; [apply call_ok, sized_transpose|]. split; [apply call_ok, sized_to_dense|]. split; [apply call_ok, sized_coo|]. split; intros m n O.
  - unfold a_mult_dense, a_bind, a_lift. destruct (Z.eqb_spec (d_rows X) (c_cols A)) as [E|E]; cbn [assert_].
    + exact (call_ok _ _ _ (sized_mult A X E) m n O).
    + unfold sp_mult_dense. destruct (Z.eqb_spec (d_rows X) (c_cols A)); [contradiction|reflexivity].
  - unfold a_multAT_dense, a_bind, a_lift. destruct (Z.eqb_spec (d_rows X) (c_rows A)) as [E|E]; cbn [assert_].
    + exact (call_ok _ _ _ (sized_multAT A X E) m n O).
    + unfold sp_multAT_dense. destruct (Z.eqb_spec (d_rows X) (c_rows A)); [contradiction|reflexivity].
Qed.

End AllocProofs.
