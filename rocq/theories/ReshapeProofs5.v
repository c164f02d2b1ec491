(** The optimised nodes compute the same tensor. *)
From Coq Require Import String List Arith ZArith Bool Lia.
From Verif Require Import Tensor FGraph OnnxSpec PushSpec NNSpec FoldModel TensorProofs FoldProofs FoldFunProofs ReshapeSpec ReshapeModel ReshapeProofs ReshapeProofs2 ReshapeProofs3 ReshapeProofs4.
Import ListNotations.
Local Open Scope string_scope.
Local Open Scope list_scope.

Lemma enumerate_nth {A B} (f : nat * A -> B) l : forall j k, nth_error (map f (enumerate j l)) k = option_map (fun s => f (j + k, s)) (nth_error l k).
Proof.
  induction l as [|x l IH]; intros j [|k]; cbn; auto; [now rewrite Nat.add_0_r|]. rewrite IH. replace (S j + k) with (j + S k) by lia. reflexivity.
Qed.
Section Decide.
Context {X : Type} (x y : tensor X).
Variables (symb : list sym) (target : list Z).
Hypothesis Pos : 0 < size (shape x).
Hypothesis Val : forall v, (forall i, i < length (shape x) -> v i = Z.of_nat (nth i (shape x) 0)) -> map (eval v) symb = target.
Hypothesis Orig : reshape_rel false target x y.
(** how an entry n of the new shape comes about *)
Definition entry (shift : Z) (k : nat) (s : sym) (n : Z) : Prop :=
  (is_const s = true /\ n = constant s) \/ n = (-1)%Z \/ (n = 0%Z /\ get_shift s k = Some shift).
Lemma new_dim shift k s n d : nth_error symb k = Some s -> nth_error (shape y) k = Some d -> entry shift k s n ->
  n = (-1)%Z \/ (nth_error target k = Some n /\ dim_ok false (shape x) k n d) \/
  (n = 0%Z /\ exists t, Z.of_nat t = (Z.of_nat k + shift)%Z /\ nth_error (shape x) t = Some d).
Proof.
  intros Es Ed E. destruct Orig as (_ & _ & _ & _ & Ok & _).
  assert (Tk : forall v, (forall i, i < length (shape x) -> v i = Z.of_nat (nth i (shape x) 0)) -> nth_error target k = Some (eval v s)).
  { intros v Hv. rewrite <- (Val v Hv), nth_error_map, Es. reflexivity. }
  set (v0 := fun w i => if Nat.ltb i (length (shape x)) then Z.of_nat (nth i (shape x) 0) else w).
  assert (Hv : forall w i, i < length (shape x) -> v0 w i = Z.of_nat (nth i (shape x) 0)).
  { intros w i Hi. unfold v0. apply Nat.ltb_lt in Hi. rewrite Hi. reflexivity. }
  destruct E as [[C ->]|[->|[-> G]]]; auto.
  - right. left. assert (T := Tk _ (Hv 0%Z)). unfold is_const in C. destruct (terms s) eqn:Et; [|discriminate]. unfold eval in T. rewrite Et in T. cbn in T. rewrite Z.mul_1_r in T.
    eauto.
  - right. right. split; auto. unfold get_shift in G. destruct (is_single_var s) eqn:Sv; [|discriminate]. unfold is_single_var in Sv.
    destruct (terms s) as [|t [|? ?]] eqn:Et; try discriminate. apply Z.eqb_eq in Sv. injection G as G. exists t. split; [lia|].
    assert (Ev : forall v, eval v s = v t) by (intro v; unfold eval, prodZ'; rewrite Et, Sv; cbn [map fold_right]; lia).
    assert (T0 := Tk _ (Hv 0%Z)). assert (T1 := Tk _ (Hv 1%Z)). rewrite Ev in T0, T1.
    destruct (Nat.lt_ge_cases t (length (shape x))) as [Lt|Ge].
    + rewrite Hv in T0 by auto. assert (O := Ok k _ d T0 Ed). rewrite (nth_of (shape x) 0 t) by auto. f_equal.
      apply size_pos in Pos. rewrite Forall_forall in Pos. assert (P := Pos (nth t (shape x) 0) (nth_In _ _ Lt)).
      destruct O as [O|[[O _]|[_ O]]]; lia.
    + exfalso. unfold v0 in T0, T1. apply Nat.ltb_ge in Ge. rewrite Ge in T0, T1. congruence.
Qed.
Lemma chosen shift new0 : length new0 = length symb -> count (-1) new0 <= 1 ->
  (forall k s, nth_error symb k = Some s -> exists n, nth_error new0 k = Some n /\ entry shift k s n) ->
  (shift <> 0%Z -> ~ In 0%Z target) ->
  optimised shift (if (0 <? shift)%Z then repeat 1%Z (Z.to_nat shift) ++ new0 else new0) x y.
Proof.
  intros Ln Cn En Nz. assert (Dt := reshape_same_data _ _ _ _ Orig). assert (O := Orig). destruct O as (Wx & Wy & _ & Ly & _ & Sz & _).
  assert (Lt : length target = length symb).
  { rewrite <- (Val (fun i => Z.of_nat (nth i (shape x) 0)) (fun i _ => eq_refl)). apply map_length. }
  assert (Dim : forall k n d, nth_error new0 k = Some n -> nth_error (shape y) k = Some d -> n = (-1)%Z \/ (nth_error target k = Some n /\ dim_ok false (shape x) k n d) \/
     (n = 0%Z /\ exists t, Z.of_nat t = (Z.of_nat k + shift)%Z /\ nth_error (shape x) t = Some d)).
  { intros k n d Hn Hd. destruct (nth_error symb k) as [s|] eqn:Es; [|apply nth_error_None in Es; assert (k < length new0) by (apply nth_error_Some; congruence); lia].
    destruct (En k s Es) as (n' & Hn' & E). assert (n' = n) by congruence. subst n'. eapply new_dim; eauto. }
  unfold optimised. destruct (Z.ltb_spec shift 0) as [Neg|NN].
  - destruct (Z.ltb_spec 0 shift); [lia|]. set (m := Z.to_nat (- shift)). assert (Hm : Z.of_nat m = (- shift)%Z) by (unfold m; lia).
    exists (Tensor (repeat 1 m ++ shape x) (data x)), y. split; [apply unsqueeze_front; auto|]. split; [|reflexivity].
    eapply reshape_data; [| |cbn; exact Dt|reflexivity| | | |]; auto; cbn [shape].
    + unfold wf in *. cbn [shape data]. rewrite size_ones. auto.
    + rewrite size_ones. auto.
    + lia.
    + intros k n d Hn Hd. destruct (Dim k n d Hn Hd) as [->|[[Ht D]|[-> (t & Et & Ed)]]]; [left; reflexivity| |].
      * destruct D as [->|[[-> _]|D]]; [left; reflexivity| |right; right; exact D]. exfalso. apply Nz; [lia|]. eapply nth_error_In; eauto.
      * right. left. split; auto. rewrite nth_error_app2 by (rewrite repeat_length; lia). rewrite repeat_length. replace (k - m) with t by lia. exact Ed.
  - destruct (Z.ltb_spec 0 shift) as [P|Z0].
    + set (m := Z.to_nat shift). assert (Hm : Z.of_nat m = shift) by (unfold m; lia).
      exists x, (Tensor (repeat 1 m ++ shape y) (data y)). split; auto. split; [|apply squeeze_front; auto].
      eapply reshape_data; [| |cbn; exact Dt|reflexivity| | | |]; auto; cbn [shape].
      * unfold wf in *. cbn [shape data]. rewrite size_ones. auto.
      * rewrite size_ones. auto.
      * unfold count in Cn. rewrite filter_app, app_length. unfold m; replace (filter (Z.eqb (-1)) (repeat 1%Z (Z.to_nat shift))) with (@nil Z); [exact Cn|]. symmetry. clear. induction (Z.to_nat shift) as [|q IH]; [reflexivity|exact IH].
      * rewrite !app_length, !repeat_length. lia.
      * intros k n d Hn Hd. destruct (Nat.lt_ge_cases k m) as [Lk|Ge].
        -- rewrite nth_error_app1 in Hn, Hd by (rewrite repeat_length; auto). apply nth_error_In, repeat_spec in Hn. apply nth_error_In, repeat_spec in Hd. subst n d. right. right. split; [lia|reflexivity].
        -- rewrite nth_error_app2 in Hn, Hd by (rewrite repeat_length; auto). rewrite repeat_length in Hn, Hd.
           destruct (Dim (k - m) n d Hn Hd) as [->|[[Ht D]|[-> (t & Et & Ed)]]]; [left; reflexivity| |].
           ++ destruct D as [->|[[-> _]|D]]; [left; reflexivity| |right; right; exact D]. exfalso. apply Nz; [lia|]. eapply nth_error_In; eauto.
           ++ right. left. split; auto. replace k with t by lia. exact Ed.
    + assert (shift = 0%Z) by lia. subst shift. exists x, y. split; auto. split; auto.
      eapply reshape_data; eauto; [lia|]. intros k n d Hn Hd. destruct (Dim k n d Hn Hd) as [->|[[Ht D]|[-> (t & Et & Ed)]]]; [left; reflexivity|exact D|].
      right. left. split; auto. replace k with t by lia. exact Ed.
Qed.
Lemma decide_ok known shift new : decide known symb = Some (shift, new) -> (shift <> 0%Z -> ~ In 0%Z target) -> optimised shift new x y.
Proof.
  intros E Nz. unfold decide in E. destruct (Nat.ltb 1 _) in E; [discriminate|].
  set (c := Nat.leb _ 1) in E. set (sh := match most_common _ with Some s => s | None => 0%Z end) in E.
  destruct (if c then _ else _) as [s new0] eqn:Q. destruct (Nat.ltb_spec 1 (count (-1) new0)) as [|Cn]; [discriminate|].
  assert (X0 : s = shift /\ new = if (0 <? s)%Z then repeat 1%Z (Z.to_nat s) ++ new0 else new0).
  { destruct (_ && _); [discriminate|]. injection E as <- <-. auto. }
  destruct X0 as [-> ->]. apply chosen; auto.
  - destruct c; injection Q as <- <-; [apply map_length|]. rewrite map_length. clear. generalize 0. induction symb; intro; cbn; auto.
  - intros k v0 Es. destruct c; injection Q as <- <-.
    + rewrite nth_error_map, Es. eexists. split; [reflexivity|]. unfold entry. destruct (is_const v0); auto.
    + rewrite enumerate_nth, Es. eexists. split; [reflexivity|]. unfold entry, get_reshape_dim. cbn [Nat.add]. destruct (is_const v0); auto.
      destruct (get_shift v0 k) as [z|] eqn:G; auto. destruct (Z.eqb_spec z sh); auto. subst z. auto.
Qed.
End Decide.
Lemma optimised_fun {X} shift new (x y z : tensor X) : 0 < size (shape x) -> optimised shift new x y -> optimised shift new x z -> y = z.
Proof.
  intros P (x1 & y1 & A1 & B1 & C1) (x2 & y2 & A2 & B2 & C2). assert (Ex : x1 = x2 /\ size (shape x1) = size (shape x)).
  { destruct (shift <? 0)%Z; [|subst; auto]. split; [eapply unsqueeze_fun; eauto|].
    destruct A1 as (_ & _ & _ & ax & _ & _ & One & S1 & _). rewrite S1. symmetry. apply drop_size. intros. rewrite Nat.sub_0_r. auto. }
  destruct Ex as [<- Es]. assert (y1 = y2) by (apply (reshape_fun new x1); auto; rewrite Es; exact P). subst y2. destruct (0 <? shift)%Z; [|congruence]. eapply squeeze_fun; eauto.
Qed.

Section Main.
Context {A : Type} (num : Z -> A).
Variable opset : nat.
Variable cval : list (string * attr) -> option (tensor Z).
Variable cast : Z -> Z -> Z.
Variable op_rel : string -> string -> list (string * attr) -> nat -> list (tensor A) -> list (list (tensor A) -> list (tensor A) -> Prop) -> list (tensor A) -> Prop.
Hypothesis Sem : shape_semantics num opset cval cast op_rel.
Lemma symbolic_target nodes (r : string -> tensor A) x known fuel t res :
  all_hold op_rel r nodes -> (forall n, In n nodes -> In (f_op n) shape_ops -> simple_node n) ->
  (forall n xs, In n nodes -> In (f_op n) shape_ops -> map r (f_in n) = map (retype num) xs -> plain opset cast (forall i, In i (f_in n) -> constant_tensor nodes i) (f_op n) (f_attrs n) xs) ->
  (forall n, In n nodes -> f_op n = "Shape" -> In x (f_in n) -> f_in n = [x] /\ f_attrs n = [] /\ f_bodies n = [] /\ exists o, f_out n = [o] /\ o <> "") ->
  has_shape known (r x) -> compute_output opset cval cast nodes fuel t (feed_of nodes x known) = Some res ->
  forall v, (forall i, i < length (shape (r x)) -> v i = Z.of_nat (nth i (shape (r x)) 0)) -> r t = retype num (tmap (eval v) res).
Proof.
  intros Hold Simple Plain Shapes Known E v Dims. eapply compute_output_sound; eauto. eapply feed_sound; eauto.
Qed.
Lemma optimize_reshape_ok nodes (r : string -> tensor A) nm dom at_ x t y known fuel shift new :
  all_hold op_rel r nodes -> (forall n, In n nodes -> In (f_op n) shape_ops -> simple_node n) ->
  (forall n xs, In n nodes -> In (f_op n) shape_ops -> map r (f_in n) = map (retype num) xs -> plain opset cast (forall i, In i (f_in n) -> constant_tensor nodes i) (f_op n) (f_attrs n) xs) ->
  (forall n, In n nodes -> f_op n = "Shape" -> In x (f_in n) -> f_in n = [x] /\ f_attrs n = [] /\ f_bodies n = [] /\ exists o, f_out n = [o] /\ o <> "") ->
  has_shape known (r x) -> 0 < size (shape (r x)) ->
  holds op_rel r (FNode nm "Reshape" dom at_ [x; t] [y] []) -> y <> "" -> attr_int "allowzero" at_ 0 = 0%Z ->
  optimize_reshape opset cval cast nodes fuel x t known = Some (shift, new) ->
  (shift <> 0%Z -> forall target, r t = retype num (Tensor [length target] target) -> ~ In 0%Z target) ->
  forall z, optimised shift new (r x) z <-> z = r y.
Proof.
  intros Hold Simple Plain Shapes Known Pos H Ny Az E Nz z. cbn [holds] in H. destruct H as (vs & H & Pr). cbn [map length] in H.
  destruct (ss_reshape _ _ _ _ _ Sem _ _ _ _ _ H Az) as (target & w & Et & -> & R). specialize (Pr 0 y eq_refl Ny). cbn in Pr. injection Pr as ->.
  unfold optimize_reshape in E. apply bind_inv in E. destruct E as (p & Ep & E). destruct (_ || _); [discriminate|]. apply bind_inv in E. destruct E as (res & Er & E).
  destruct (Nat.eqb (length (shape res)) 1); [|discriminate].
  assert (Val : forall v, (forall i, i < length (shape (r x)) -> v i = Z.of_nat (nth i (shape (r x)) 0)) -> map (eval v) (data res) = target).
  { intros v Dims. assert (Q := symbolic_target nodes r x known fuel t res Hold Simple Plain Shapes Known Er v Dims). rewrite Et in Q.
    apply (retype_inj num opset cval cast op_rel Sem) in Q. apply (f_equal data) in Q. cbn in Q. congruence. }
  assert (O : optimised shift new (r x) (r y)) by (eapply decide_ok; eauto).
  split; [intro O'; eapply optimised_fun; eauto|intros ->; exact O].
Qed.
End Main.
