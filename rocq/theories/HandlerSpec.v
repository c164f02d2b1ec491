(** Specification for C26, C27, C45: what "the newest converter / schema not newer than the opset" means, in terms of the
    history of registrations only. *)
From Coq Require Import String List Arith.
Import ListNotations.

Section HandlerSpec.
Variable H : Type.
Record registration := Registration { rfunc : H; rversion : nat; rnames : list string; rdomain : string }.

Definition registered_at (hist : list registration) (i : nat) (d : string) (v : nat) (name : string) (f : H) : Prop :=
  exists r, nth_error hist i = Some r /\ rdomain r = d /\ rversion r = v /\ In name (rnames r) /\ rfunc r = f.
(** the position at which domain [d] was first registered *)
Definition first_use (hist : list registration) (d : string) (i : nat) : Prop :=
  (exists r, nth_error hist i = Some r /\ rdomain r = d) /\
  (forall j r, j < i -> nth_error hist j = Some r -> rdomain r <> d).
Definition domain_before hist d d' : Prop := exists a b, first_use hist d a /\ first_use hist d' b /\ a < b.

(** the version requested for domain [d]: the last extra opset naming it, otherwise the onnx opset for the onnx domain *)
Definition requested (onnx : string) (max_onnx : nat) (extra : list (string * nat)) (d : string) (m : nat) : Prop :=
  (exists l1 l2, extra = l1 ++ (d, m) :: l2 /\ ~ In d (map fst l2)) \/
  (~ In d (map fst extra) /\ d = onnx /\ m = max_onnx).
Definition usable onnx max_onnx extra (d : string) (v : nat) : Prop :=
  exists m, requested onnx max_onnx extra d m /\ 0 < m /\ v <= m.

(** [f] is the converter to use for [name]: among the usable registrations of [name], the domain registered last comes
    first, then the largest version, then the latest registration *)
Definition newest onnx max_onnx extra (hist : list registration) (name : string) (f : H) : Prop :=
  exists i d v, registered_at hist i d v name f /\ usable onnx max_onnx extra d v /\
    forall j d' v' f', registered_at hist j d' v' name f' -> usable onnx max_onnx extra d' v' ->
      domain_before hist d' d \/ (d' = d /\ (v' < v \/ (v' = v /\ j <= i))).
Definition supported onnx max_onnx extra (hist : list registration) (name : string) : Prop :=
  exists i d v f, registered_at hist i d v name f /\ usable onnx max_onnx extra d v.
(** the same within one domain *)
Definition newest_in onnx max_onnx extra (hist : list registration) (d : string) (name : string) (f : H) : Prop :=
  exists i v, registered_at hist i d v name f /\ usable onnx max_onnx extra d v /\
    forall j v' f', registered_at hist j d v' name f' -> usable onnx max_onnx extra d v' -> v' < v \/ (v' = v /\ j <= i).
End HandlerSpec.
Arguments Registration {H}. Arguments rfunc {H}. Arguments rversion {H}. Arguments rnames {H}. Arguments rdomain {H}.
Arguments registered_at {H}. Arguments first_use {H}. Arguments domain_before {H}. Arguments newest {H}.
Arguments supported {H}. Arguments newest_in {H}.
