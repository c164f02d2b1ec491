(** Pushing DequantizeLinear behind operators that copy elements. *)
From Coq Require Import String List Arith ZArith Bool Lia Reals.
From Verif Require Import FGraph FGraphSpec FGraphProofs IdentityModel IdentityProofs ApplyOptProofs ExecSpec ExecProofs DeadProofs RewriteProofs BypassProofs SplitProofs.
From Verif Require Import Tensor OnnxSpec TensorProofs FoldModel NNSpec PushSpec SwitchModel SwitchSpec SwitchProofs SwitchProofs2 SwitchProofs3 PoolModel PoolProofs QuantSpec QuantProofs QdqModel QdqSpec QdqProofs.
Import ListNotations.
Local Open Scope nat_scope.
Local Open Scope string_scope.
Local Open Scope list_scope.

Lemma view_ext {A} idx (ws ws' : list (tensor A)) : length ws = length ws' ->
  (forall k x x', nth_error ws k = Some x -> nth_error ws' k = Some x' -> if existsb (Nat.eqb k) idx then shape x = shape x' else x = x') -> view idx ws = view idx ws'.
Proof.
  intros L H. unfold view. assert (K : forall j (l l' : list (tensor A)), length l = length l' ->
    (forall k x x', nth_error l k = Some x -> nth_error l' k = Some x' -> if existsb (Nat.eqb (j + k)) idx then shape x = shape x' else x = x') ->
    map (fun kx => if existsb (Nat.eqb (fst kx)) idx then inl (shape (snd kx)) else inr (snd kx)) (combine (seq j (length l)) l) =
    map (fun kx => if existsb (Nat.eqb (fst kx)) idx then inl (shape (snd kx)) else inr (snd kx)) (combine (seq j (length l')) l')).
  { clear. intros j l. revert j. induction l as [|x l IH]; intros j [|x' l'] L H; try discriminate; auto. cbn [length seq combine map fst snd]. f_equal.
    - specialize (H 0 x x' eq_refl eq_refl). rewrite Nat.add_0_r in H. destruct (existsb (Nat.eqb j) idx); congruence.
    - apply IH; [cbn in L; lia|]. intros k y y' E E'. specialize (H (S k) y y' E E'). now rewrite Nat.add_succ_r in H. }
  apply K; auto.
Qed.
(** the tensors ws' are the dequantised ws in the positions idx *)
Definition dequantized (ar : arithmetic) (axis : Z) (s z : V) (idx : list nat) (ws ws' : list V) : Prop :=
  length ws = length ws' /\
  forall k x x', nth_error ws k = Some x -> nth_error ws' k = Some x' -> if existsb (Nat.eqb k) idx then deq_rel ar axis s z x x' else x = x'.
Lemma dequantized_view ar axis s z idx ws ws' : dequantized ar axis s z idx ws ws' -> view idx ws = view idx ws'.
Proof.
  intros [L H]. apply view_ext; auto. intros k x x' E E'. specialize (H k x x' E E'). destruct (existsb (Nat.eqb k) idx); auto.
  destruct H as (ax & _ & _ & _ & S & _). auto.
Qed.
Lemma same_length_nth {A B} (l : list A) (l' : list B) k x : length l = length l' -> nth_error l k = Some x -> exists x', nth_error l' k = Some x'.
Proof. intros L E. assert (K : k < length l) by (apply nth_error_Some; congruence). destruct (nth_error l' k) eqn:E'; eauto. apply nth_error_None in E'. lia. Qed.
Lemma existsb_in k idx : In k idx -> existsb (Nat.eqb k) idx = true.
Proof. intro H. apply existsb_exists. exists k. split; auto. apply Nat.eqb_refl. Qed.

Lemma finite_choice {A} n (P : nat -> A -> Prop) : (forall k, k < n -> exists v, P k v) -> exists l, length l = n /\ forall k v, nth_error l k = Some v -> P k v.
Proof.
  revert P. induction n as [|n IH]; intros P H.
  - exists []. split; auto. intros [|k] v E; discriminate.
  - destruct (H 0) as [v Hv]; [lia|]. destruct (IH (fun k => P (S k))) as (l & L & K). { intros k Lk. apply H. lia. }
    exists (v :: l). split; [cbn; lia|]. intros [|k] u E; cbn in E; [inversion E; now subst|auto].
Qed.

Section Natural.
Variables (ar : arithmetic) (axis : Z) (s z : V) (len : nat) (idx : list nat) (R : list V -> V -> Prop).
Hypothesis C : copies len idx R.
(** one scale for the whole tensor *)
Hypothesis Ss : shape s = [].
Hypothesis Ps : wf s /\ wf z /\ shape z = shape s.
Lemma any_params x : params_ok axis s z x 0.
Proof. unfold params_ok. tauto. Qed.
Lemma param_any ax ax' ix jx : param ax s ix = param ax' s jx /\ param ax z ix = param ax' z jx.
Proof. unfold param. destruct Ps as (_ & _ & ->). rewrite Ss. auto. Qed.
Lemma deq_inj lo hi sv zv q q' : ok ar lo hi sv zv -> (lo <= q <= hi)%Z -> (lo <= q' <= hi)%Z -> deq ar sv zv q = deq ar sv zv q' -> q = q'.
Proof. intros O B B' E. assert (K := proj2 (deq_qua ar lo hi sv zv q q O B) eq_refl). rewrite E in K. now apply (deq_qua ar lo hi sv zv q' q O B') in K. Qed.
Lemma copy_forth ws ws' w' : length ws = len -> dequantized ar axis s z idx ws ws' -> R ws' w' -> exists w, R ws w /\ deq_rel ar axis s z w w'.
Proof.
  intros L D H. destruct C as (plan & from & Pl). destruct D as [Ll D]. assert (Vw := dequantized_view ar axis s z idx ws ws' (conj Ll D)).
  apply Pl in H; [|congruence]. destruct H as (W & Ww & Hp & Hs). rewrite <- Vw in Hp, Hs.
  assert (Hx : forall ix, inb ix (shape w') -> forall k jx, from (view idx ws) (shape w') ix k jx -> exists x lo hi sv zv q,
    In k idx /\ nth_error ws k = Some x /\ inb jx (shape x) /\ get x jx = Some (QV lo hi q) /\ get w' ix = Some (RV (deq ar sv zv q)) /\
    get s [] = Some (RV sv) /\ get z [] = Some (QV lo hi zv) /\ ok ar lo hi sv zv /\ (lo <= q <= hi)%Z).
  { intros ix I k jx F. destruct (Hs ix I) as [_ K]. destruct (K k jx F) as (x' & K1 & K2 & K3 & K4). destruct (same_length_nth ws' ws _ x' (eq_sym Ll) K2) as [x E].
    specialize (D _ x x' E K2). rewrite (existsb_in _ _ K1) in D. destruct D as (ax & _ & Wx & _ & Sx & D). rewrite Sx in K3. destruct (D jx K3) as (lo & hi & sv & zv & q & A1 & A2 & A3 & A4 & A5 & A6).
    unfold param in A1, A2. destruct Ps as (_ & _ & Sz). rewrite Sz in A2. rewrite Ss in A1, A2. exists x, lo, hi, sv, zv, q. rewrite K4. repeat (split; auto). }
  destruct (finite_choice (size (shape w')) (fun p v => forall k jx x, from (view idx ws) (shape w') (unravel (shape w') p) k jx -> nth_error ws k = Some x -> get x jx = Some v /\ inb jx (shape x) /\ In k idx)) as (vs & Lv & Hv).
  { intros p Lp. assert (I := unravel_inb _ _ Lp). destruct (Hs _ I) as [(k & jx & F) _]. destruct (Hx _ I k jx F) as (x & lo & hi & sv & zv & q & A1 & A2 & A3 & A4 & A5 & A6 & A7 & A8 & A9).
    exists (QV lo hi q). intros k' jx' x' F' E'. destruct (Hx _ I k' jx' F') as (x2 & lo' & hi' & sv' & zv' & q' & B1 & B2 & B3 & B4 & B5 & B6 & B7 & B8 & B9).
    assert (x2 = x') by congruence. subst x2. split; auto. rewrite B4. rewrite A6 in B6. inversion B6; subst sv'. rewrite A7 in B7. inversion B7; subst lo' hi' zv'. rewrite A5 in B5. inversion B5 as [B]. rewrite (deq_inj lo hi sv zv q q'); auto. }
  set (w := Tensor (shape w') vs). assert (Wn : wf w) by exact Lv.
  assert (Gw : forall ix, inb ix (shape w') -> forall k jx x, from (view idx ws) (shape w') ix k jx -> nth_error ws k = Some x -> get w ix = get x jx /\ inb jx (shape x) /\ In k idx).
  { intros ix I k jx x F E. destruct (get_wf w ix Wn I) as [v Ev]. unfold get in Ev. cbn [w shape data] in Ev. assert (K := Hv _ _ Ev k jx x). rewrite unravel_ravel in K by auto. destruct (K F E) as (K1 & K2 & K3). rewrite K1. split; auto. }
  exists w. split.
  - apply Pl; auto. split.
    + intros k x Hk E. destruct (same_length_nth ws ws' _ x Ll E) as [x' E']. specialize (D k x x' E E'). rewrite (existsb_in _ _ Hk) in D. destruct D as (ax & _ & Wx & _). exact Wx.
    + split; auto. split; auto. intros ix I. cbn [w shape] in I. destruct (Hs ix I) as [Q _]. split; auto. intros k jx F. destruct (Hx ix I k jx F) as (x & lo & hi & sv & zv & q & A1 & A2 & A3 & _). exists x. destruct (Gw ix I k jx x F A2) as (B1 & _ & _). auto.
  - exists 0. split; [apply any_params|]. split; auto. split; auto. split; auto. intros ix I. cbn [w shape] in I. destruct (Hs ix I) as [(k & jx & F) _].
    destruct (Hx ix I k jx F) as (x & lo & hi & sv & zv & q & A1 & A2 & A3 & A4 & A5 & A6 & A7 & A8 & A9). destruct (Gw ix I k jx x F A2) as (B1 & _ & _). exists lo, hi, sv, zv, q.
    unfold param. destruct Ps as (_ & _ & Sz). rewrite Sz, Ss, B1, A4. repeat (split; auto).
Qed.
Lemma copy_back ws ws' w w' : length ws = len -> dequantized ar axis s z idx ws ws' -> R ws w -> deq_rel ar axis s z w w' -> R ws' w'.
Proof.
  intros L D H (ax & _ & Ww & Ww' & Sw & Q). destruct C as (plan & from & Pl). destruct D as [Ll D]. assert (Vw := dequantized_view ar axis s z idx ws ws' (conj Ll D)).
  apply Pl in H; auto. destruct H as (W & _ & Hp & Hs). apply Pl; [congruence|]. split.
  - intros k x' Hk E'. destruct (same_length_nth ws' ws _ x' (eq_sym Ll) E') as [x E]. specialize (D k x x' E E'). rewrite (existsb_in _ _ Hk) in D. destruct D as (bx & _ & _ & Wx & _). exact Wx.
  - split; auto. rewrite <- Vw, Sw. split; [exact Hp|]. intros ix I. destruct (Hs ix I) as [Ex K]. split; auto. intros k jx F. destruct (K k jx F) as (x & K1 & K2 & K3 & K4). destruct (same_length_nth ws ws' _ x Ll K2) as [x' E'].
    specialize (D _ x x' K2 E'). rewrite (existsb_in _ _ K1) in D. destruct D as (bx & _ & Wx & Wx' & Sx & Dx). exists x'. split; auto. split; auto. split; [now rewrite Sx|].
    destruct (Q ix I) as (lo & hi & sv & zv & q & A1 & A2 & A3 & A4 & A5 & A6). destruct (Dx _ K3) as (lo' & hi' & sv' & zv' & q' & B1 & B2 & B3 & B4 & B5 & B6).
    destruct (param_any ax bx ix jx) as [P1 P2]. rewrite P1, B1 in A1. rewrite P2, B2 in A2. inversion A1; subst sv'. inversion A2; subst lo' hi' zv'.
    rewrite K4, B4 in A4. inversion A4; subst q'. now rewrite A6, B6.
Qed.
End Natural.

Lemma replace_some_spec f idx : forall ins k ins', replace_some f idx k ins = Some ins' -> length ins' = length ins /\
  forall j i i', nth_error ins j = Some i -> nth_error ins' j = Some i' -> if existsb (Nat.eqb (k + j)) idx then f i = Some i' else i' = i.
Proof.
  induction ins as [|i ins IH]; intros k ins' H; cbn [replace_some] in H.
  - inversion H. split; auto. intros [|j] a b E; discriminate.
  - destruct (replace_some f idx (S k) ins) as [l'|] eqn:E; [|discriminate]. destruct (IH _ _ E) as [L K].
    destruct (existsb (Nat.eqb k) idx) eqn:Ek.
    + destruct (f i) as [i'|] eqn:Ef; [|discriminate]. inversion H. subst ins'. split; [cbn; lia|]. intros [|j] a b A B; cbn in A, B.
      * inversion A; inversion B; subst. rewrite Nat.add_0_r, Ek. exact Ef.
      * rewrite Nat.add_succ_r. apply (K j a b); auto.
    + inversion H. subst ins'. split; [cbn; lia|]. intros [|j] a b A B; cbn in A, B.
      * inversion A; inversion B; subst. now rewrite Nat.add_0_r, Ek.
      * rewrite Nat.add_succ_r. apply (K j a b); auto.
Qed.
Section Push.
Variable op_rel : string -> string -> list (string * attr) -> nat -> list V -> list (list V -> list V -> Prop) -> list V -> Prop.
Hypothesis ext : op_ext op_rel.
Variable ar : arithmetic.
Hypothesis M : qdq_means op_rel ar.
Notation holds := (holds op_rel). Notation body_rel := (body_rel op_rel). Notation all_hold := (all_hold op_rel). Notation env := (env V).
Lemma holds_relates n (r : env) R ins y nm : relates op_rel n R -> y <> "" ->
  (holds r (FNode nm (f_op n) (f_dom n) (f_attrs n) ins [y] []) <-> R (map r ins) (r y)).
Proof.
  intros Me Ny. rewrite holds_eq. cbn [f_op f_dom f_attrs f_in f_out f_bodies map length]. split.
  - intros (vs & H & P). apply Me in H. destruct H as (w & -> & K). specialize (P 0 y eq_refl Ny). cbn in P. injection P as ->. exact K.
  - intro K. exists [r y]. split; [apply Me; eauto|]. intros [|j] o E _; cbn in *; [now inversion E|destruct j; discriminate].
Qed.
Lemma nth_error_map_some {A B} (f : A -> B) l k v : nth_error (map f l) k = Some v -> exists u, nth_error l k = Some u /\ v = f u.
Proof. rewrite nth_error_map. destruct (nth_error l k) as [u|]; [|discriminate]. intro E. inversion E. eauto. Qed.

Lemma push_dequantize_ok nm y' g dq n x s z t y R : valid g ->
  In dq (f_nodes g) -> f_op dq = "DequantizeLinear" -> f_in dq = [x; s; z] -> f_out dq = [t] -> f_bodies dq = [] -> t <> "" ->
  In n (f_nodes g) -> In t (f_in n) -> f_out n = [y] -> f_bodies n = [] -> y <> "" ->
  relates op_rel n R -> (forall idx outs, tensor_op n = Some (idx, outs) -> copies (length (f_in n)) idx R) ->
  (forall i d, In i (f_in n) -> producer i g = Some d -> f_op d = "DequantizeLinear" -> f_out d = [i] /\ i <> "" /\ f_bodies d = [] /\ exists x s z, f_in d = [x; s; z]) ->
  y' <> "" -> ~ In y' (alldefs g) -> ~ In y' (fv_graph g) -> ~ In nm (map f_name (f_nodes g)) ->
  exists g' changed, push_dequantize nm y' g dq n = Some (g', changed) /\ valid g' /\
  forall (r0 : env) args res,
    (forall r : env, (forall u, ~ In u (defs g) -> u <> y' -> r u = r0 u) -> map r (f_ins g) = args -> (forall h, In h (f_nodes g) -> h <> n -> holds r h) -> shape (r s) = []) ->
    (body_rel r0 g args res <-> body_rel r0 g' args res).
Proof.
  intros [rk W] Hdq Odq Idq Tdq Bdq Nt Hn Ht On Bn Ny Rn Cp Hd Ny' Fr1 Fr2 Frn. assert (G := W g (within_refl _)). unfold push_dequantize.
  assert (Id : exists g' changed, Some (g, false) = Some (g', changed) /\ valid g' /\ forall (r0 : env) args res,
    (forall r : env, (forall u, ~ In u (defs g) -> u <> y' -> r u = r0 u) -> map r (f_ins g) = args -> (forall h, In h (f_nodes g) -> h <> n -> holds r h) -> shape (r s) = []) ->
    (body_rel r0 g args res <-> body_rel r0 g' args res)).
  { exists g, false. split; auto. split; [exists rk; exact W|]. tauto. }
  destruct (has_attr "axis" dq) eqn:Ax; [apply Id|]. destruct (tensor_op n) as [[idx outs]|] eqn:To; [|apply Id].
  destruct outs as [|[|o] [|o2 outs]]; try apply Id. specialize (Cp _ _ eq_refl).
  destruct (replace_some (undequantized dq g) idx 0 (f_in n)) as [ins|] eqn:Ri; [|apply Id]. rewrite On. cbn [head]. destruct (mem y (f_outs g)) eqn:My; [apply Id|]. clear Id. apply mem_false in My.
  destruct (replace_some_spec _ _ _ _ _ Ri) as [Li Hi]. cbn [Nat.add] in Hi.
  assert (Ne : dq <> n). { intros ->. unfold tensor_op in To. rewrite Odq in To. cbn in To. discriminate. }
  rewrite Idq. cbn [tl]. assert (Hn' := Hn). apply in_split in Hn'. destruct Hn' as (l1 & l2 & El).
  assert (Egr : g = FGraph (l1 ++ n :: l2) (f_ins g) (f_outs g)). { rewrite <- El. destruct g; reflexivity. }
  assert (Nm := g_names _ _ G). rewrite El in Nm. rewrite Bn.
  set (n' := FNode (f_name n) (f_op n) (f_dom n) (f_attrs n) ins [y] []) in *. set (m := FNode nm "DequantizeLinear" "" [] [y; s; z] [y'] []).
  assert (Dn : n = FNode (f_name n) (f_op n) (f_dom n) (f_attrs n) (f_in n) [y] []). { clear - On Bn. destruct n. cbn in *. congruence. }
  assert (Dn' : n' = FNode (f_name n) (f_op n) (f_dom n) (f_attrs n) ins [y] []) by reflexivity.
  assert (Dy : In y (defs g)) by (apply in_defs; split; auto; right; exists n; rewrite On; split; auto; now left).
  (* the inputs *)
  assert (Und : forall i i', In i (f_in n) -> undequantized dq g i = Some i' -> exists d, In d (f_nodes g) /\ d <> n /\ d = FNode (f_name d) "DequantizeLinear" (f_dom d) (f_attrs d) [i'; s; z] [i] [] /\ i <> "" /\ int_attr "axis" (f_attrs d) 1 = 1%Z).
  { intros i i' Hin U. unfold undequantized in U. destruct (producer i g) as [d|] eqn:Pd; [|discriminate]. destruct (String.eqb_spec (f_op d) "DequantizeLinear") as [Od|]; [|discriminate]. cbn [andb] in U.
    destruct (same_params d dq) eqn:Sp; [|discriminate]. cbn [andb] in U. destruct (negb _); [|discriminate]. inversion U. subst i'. clear U.
    destruct (Hd i d Hin Pd Od) as (Od1 & Ni & Bd & x1 & s1 & z1 & Id1). destruct (producer_in _ _ _ Pd) as [Hdg _].
    unfold same_params in Sp. rewrite Idq, Id1 in Sp. cbn [tl] in Sp. rewrite (no_axis dq Ax) in Sp. destruct (attr_int "axis" (f_attrs d)) as [a|] eqn:Ad; [discriminate|]. cbn [andb] in Sp.
    destruct (list_eq_dec string_dec [s1; z1] [s; z]) as [E|]; [|discriminate]. injection E as -> ->. exists d. split; auto. split.
    - intros ->. unfold tensor_op in To. rewrite Od in To. cbn in To. discriminate.
    - split; [clear - Od Od1 Bd Id1; destruct d; cbn in *; subst; reflexivity|]. split; auto. assert (K := attr_int_spec "axis" (f_attrs d) 1). now rewrite Ad in K. }
  assert (Rn' : forall i, In i (f_in n) -> rk i < rk y). { intros i Hin. apply (g_acyclic _ _ G n); auto; [rewrite fv_node_eq; apply in_app_iff; auto|rewrite On; now left]. }
  assert (Used : forall k i, In k (f_nodes g) -> In i (f_in k) -> In i (defs g) \/ In i (fv_graph g)). { intros k i Hk Hin. apply (used_defs_or_free g k); auto. rewrite fv_node_eq. apply in_app_iff; auto. }
  assert (Ins : forall i', In i' ins -> rk i' < rk y /\ (In i' (defs g) \/ In i' (fv_graph g))).
  { intros i' Hin. apply In_nth_error in Hin. destruct Hin as [j Ej]. destruct (same_length_nth ins (f_in n) j i' Li Ej) as [i Ei]. specialize (Hi j i i' Ei Ej). assert (Hin := nth_error_In _ _ Ei).
    destruct (existsb (Nat.eqb j) idx).
    - destruct (Und i i' Hin Hi) as (d & Hdg & _ & Ed & Ni & _). split; [|apply (Used d); auto; rewrite Ed; now left]. apply Nat.lt_trans with (rk i); [|apply Rn'; auto].
      apply (g_acyclic _ _ G d); auto; [rewrite Ed, fv_node_eq; now left|rewrite Ed; now left].
    - subst i'. split; [now apply Rn'|now apply (Used n)]. }
  assert (Rsz : forall i, In i [x; s; z] -> rk i < rk t). { intros i Hin. apply (g_acyclic _ _ G dq); auto; [rewrite fv_node_eq, Idq; apply in_app_iff; auto|rewrite Tdq; now left]. }
  assert (Sp : splittable rk l1 n l2 (f_ins g) (f_outs g) n' m y y').
  { constructor; rewrite <- ?Egr, <- ?El; auto.
    cbn [m f_in In]. intros i [<-|Hin]; [auto|]. assert (Hin' : In i [x; s; z]) by (cbn [In]; tauto). specialize (Rsz i Hin'). specialize (Rn' t Ht). split; [lia|]. apply (Used dq); auto. now rewrite Idq. }
  rewrite El. rewrite (map_at (put_node n' y y') (subst_node y y') n' Nm).
  2:{ unfold put_node. cbn [f_name n']. now rewrite String.eqb_refl. }
  2:{ intros h Hh'. unfold put_node. cbn [f_name n']. destruct (String.eqb_spec (f_name h) (f_name n)); congruence. }
  rewrite <- app_assoc. cbn [app]. change (FGraph (map (subst_node y y') l1 ++ n' :: map (subst_node y y') l2 ++ [m]) (f_ins g) (f_outs g)) with (split_graph y y' l1 n' l2 m (f_ins g) (f_outs g)).
  exists (split_graph y y' l1 n' l2 m (f_ins g) (f_outs g)), true. split; auto. split.
  { destruct (split_valid _ _ _ _ _ _ _ _ _ _ Sp) as (RK & W' & F'). exists RK. exact W'. }
  assert (Other : forall h, In h (f_nodes g) -> h <> n -> In h (l1 ++ l2)).
  { intros h Hg Ng. rewrite El in Hg. rewrite in_app_iff in *. cbn [In] in Hg. destruct Hg as [Hg|[Hg|Hg]]; auto. congruence. }
  assert (Adq := attr_int_spec "axis" (f_attrs dq) 1). rewrite (no_axis dq Ax) in Adq.
  assert (Ddq : dq = FNode (f_name dq) "DequantizeLinear" (f_dom dq) (f_attrs dq) [x; s; z] [t] []). { clear - Odq Idq Tdq Bdq. destruct dq. cbn in *. subst. reflexivity. }
  (* the parameters and the inputs in a call *)
  assert (Par : forall r : env, all_hold r (l1 ++ l2) -> wf (r s) /\ wf (r z) /\ shape (r z) = shape (r s)).
  { intros r A. assert (K := A dq (Other dq Hdq Ne)). rewrite Ddq in K. apply (holds_d op_rel ar M) in K; auto. destruct K as (ax & (K1 & K2 & K3 & _) & _). auto. }
  assert (Deq : forall r : env, all_hold r (l1 ++ l2) -> dequantized ar 1 (r s) (r z) idx (map r ins) (map r (f_in n))).
  { intros r A. split; [now rewrite !map_length|]. intros k v v' E E'. apply nth_error_map_some in E, E'. destruct E as (i' & E & ->). destruct E' as (i & E' & ->). specialize (Hi k i i' E' E).
    destruct (existsb (Nat.eqb k) idx); [|now subst]. destruct (Und i i' (nth_error_In _ _ E') Hi) as (d & Hdg & Dn2 & Ed & Ni & Ad). assert (K := A d (Other d Hdg Dn2)). rewrite Ed in K.
    apply (holds_d op_rel ar M) in K; auto. now rewrite Ad in K. }
  assert (Hl : forall h, In h (f_nodes g) -> h <> n -> forall r : env, all_hold r (l1 ++ l2) -> holds r h). { intros h A1 A2 r A. apply A. auto. }
  intros r0 args res Ss. rewrite <- El in Ss. rewrite Egr at 1. apply (split_call V op_rel ext rk l1 n l2 (f_ins g) (f_outs g) n' m y y' Sp r0 args).
  - intros r [C1 C2] A Hold. rewrite <- Egr in C1. rewrite Dn in Hold. apply (holds_relates n r R) in Hold; auto.
    destruct (copy_forth ar 1 (r s) (r z) (length (f_in n)) idx R Cp (Ss r C1 C2 (fun h A1 A2 => Hl h A1 A2 r A)) (Par r A) (map r ins) (map r (f_in n)) (r y)) as (u & U1 & U2); auto; [now rewrite map_length|].
    exists u. set (r' := IdentityProofs.upd V (IdentityProofs.upd V r y' (r y)) y u).
    assert (Fr : forall i, rk i < rk y -> In i (defs g) \/ In i (fv_graph g) -> r' i = r i).
    { intros i Ri' Du. unfold r'. rewrite !upd_other; auto; intros ->; [|lia]. destruct Du as [Du|Du]; auto. now apply Fr1, defs_alldefs. }
    assert (Nyy : y <> y') by (intros <-; now apply Fr1, defs_alldefs).
    assert (Ey : r' y = u) by (unfold r'; apply upd_same). assert (Ey' : r' y' = r y) by (unfold r'; rewrite upd_other, upd_same; auto).
    split.
    + rewrite Dn'. apply (holds_relates n r' R); auto. rewrite Ey. assert (E : map r' ins = map r ins). { apply map_ext_in. intros i Hin. destruct (Ins i Hin). auto. } now rewrite E.
    + unfold m. apply (holds_d op_rel ar M); auto. rewrite Ey, Ey'. rewrite !Fr; auto; try (apply Nat.lt_trans with (rk t); [apply Rsz; cbn; tauto|now apply Rn']); apply (Used dq); auto; rewrite Idq; cbn; tauto.
  - intros r [C1 C2] A H1 H2. rewrite <- Egr in C1. set (r' := IdentityProofs.upd V r y (r y')) in *.
    assert (Fr : forall i, rk i < rk y -> r' i = r i). { intros i Ri'. unfold r'. apply upd_other. intros ->. lia. }
    rewrite Dn' in H1. apply (holds_relates n r R) in H1; auto. unfold m in H2. apply (holds_d op_rel ar M) in H2; auto.
    assert (E : map r' ins = map r ins). { apply map_ext_in. intros i Hin. destruct (Ins i Hin). auto. }
    rewrite Dn. apply (holds_relates n r' R); auto. assert (Ey : r' y = r y') by (unfold r'; apply upd_same). rewrite Ey.
    assert (Es : r' s = r s /\ r' z = r z). { split; apply Fr; (apply Nat.lt_trans with (rk t); [apply Rsz; cbn; tauto|now apply Rn']). } destruct Es as [Es Ez].
    apply (copy_back ar 1 (r' s) (r' z) (length (f_in n)) idx R Cp (Ss r' C1 C2 (fun h A1 A2 => Hl h A1 A2 r' A)) (Par r' A) (map r' ins) (map r' (f_in n)) (r y)); auto; [now rewrite map_length| |].
    + now rewrite E.
    + rewrite Es, Ez. exact H2.
Qed.
End Push.

Lemma tensor_op_carries n idx outs : tensor_op n = Some (idx, outs) -> carries (f_op n) (length (f_in n)) idx /\ (outs = [0] \/ f_op n = "Split").
Proof.
  unfold tensor_op. intro H.
  destruct (mem (f_op n) ["Identity"; _; _; _; _; _; _; _]) eqn:E1 in H; [injection H as <- <-; apply mem_in in E1; split; auto; apply carry_one; cbn [In] in *; intuition congruence|].
  destruct (mem (f_op n) ["Gather"; _; _]) eqn:E2 in H; [injection H as <- <-; apply mem_in in E2; split; auto; apply carry_one; cbn [In] in *; intuition congruence|].
  destruct (mem (f_op n) ["Scatter"; _; _]) eqn:E3 in H; [injection H as <- <-; apply mem_in in E3; split; auto; apply carry_scatter; cbn [In] in *; intuition congruence|].
  destruct (String.eqb_spec (f_op n) "Concat") as [E4|_]; [injection H as <- <-; split; auto; rewrite E4; apply carry_concat|].
  destruct (String.eqb_spec (f_op n) "Split") as [E5|_]; [injection H as <- <-; split; auto; apply carry_one; cbn [In]; intuition congruence|].
  destruct (mem (f_op n) ["Compress"; _; _; _]) eqn:E6 in H; [injection H as <- <-; apply mem_in in E6; split; auto; apply carry_one; cbn [In] in *; intuition congruence|discriminate].
Qed.
