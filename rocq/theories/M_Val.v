(** Python values that reach pyOTF's setters, with Python's comparison and arithmetic rules.
    A finite float is the rational number it denotes (every binary64 number is one); rounding of
    arithmetic results is not modelled. *)
From Verif Require Export Base.
From Coq Require Export QArith String.
Global Open Scope Z_scope.

(** A float: finite, NaN, or an infinity (with its sign). *)
Inductive fl := FFin (q : Q) | FNaN | FInf (neg : bool).

(** A Python value. *)
Inductive pyval :=
| VInt (z : Z) | VBool (b : bool) | VFloat (f : fl) | VStr (s : string) | VNone
| VComplex            (* a complex number: equality only, no order *)
| VUnhashable.        (* a list, a dict, ...: cannot be looked up in a set, no order with numbers *)

(** Numeric value of a real number. *)
Definition num (v : pyval) : option fl :=
  match v with
  | VInt z => Some (FFin (inject_Z z))
  | VBool b => Some (FFin (if b then 1 else 0)%Q)
  | VFloat f => Some f
  | _ => None
  end.

(** IEEE comparisons, exact on finite values. *)
Definition fl_le (x y : fl) : bool :=
  match x, y with
  | FNaN, _ | _, FNaN => false
  | FFin a, FFin b => Qle_bool a b
  | FInf true, _ => true
  | _, FInf false => true
  | _, _ => false
  end.
(** x == y *)
Definition fl_eq (x y : fl) : bool :=
  match x, y with
  | FFin a, FFin b => Qeq_bool a b
  | FInf a, FInf b => Bool.eqb a b
  | _, _ => false
  end.
(** x < y *)
Definition fl_lt (x y : fl) : bool := fl_le x y && negb (fl_eq x y).

(** [v < w], [v > w], [v >= w]: TypeError unless both are real numbers (for the pairs that occur). *)
Definition py_lt (v w : pyval) : res bool :=
  match num v, num w with Some x, Some y => Ok (fl_lt x y) | _, _ => Err TypeError end.
(** v >= w *)
Definition py_ge (v w : pyval) : res bool :=
  match num v, num w with Some x, Some y => Ok (fl_le y x) | _, _ => Err TypeError end.
(** v > w *)
Definition py_gt (v w : pyval) : res bool := py_lt w v.

(** [v == w] never raises. *)
Definition py_eq (v w : pyval) : bool :=
  match num v, num w with
  | Some x, Some y => fl_eq x y
  | None, None =>
      match v, w with
      | VStr a, VStr b => String.eqb a b
      | VNone, VNone => true
      | _, _ => false
      end
  | _, _ => false
  end.

(** Float arithmetic; division by zero raises. *)
Definition fl_zero (x : fl) : bool := match x with FFin q => Qeq_bool q 0 | _ => false end.
(** the sign *)
Definition fl_neg (x : fl) : bool :=
  match x with FFin q => negb (Qle_bool 0 q) | FInf n => n | FNaN => false end.
(** x * y *)
Definition fl_mul (x y : fl) : fl :=
  match x, y with
  | FNaN, _ | _, FNaN => FNaN
  | FFin a, FFin b => FFin (a * b)%Q
  | _, _ => if fl_zero x || fl_zero y then FNaN else FInf (xorb (fl_neg x) (fl_neg y))
  end.
(** x / y *)
Definition fl_div (x y : fl) : res fl :=
  if fl_zero y then Err ZeroDivisionError
  else Ok match x, y with
       | FNaN, _ | _, FNaN => FNaN
       | FFin a, FFin b => FFin (a / b)%Q
       | FFin _, FInf _ => FFin 0%Q
       | FInf s, FFin _ => FInf (xorb s (fl_neg y))
       | FInf _, FInf _ => FNaN
       end.

(** isinstance tests *)
Inductive vartype := TInt | TFloat | TFloatInt | TBool.
(** isinstance(v, vartype): a bool is an int. *)
Definition isinstance (v : pyval) (t : vartype) : bool :=
  match t, v with
  | TInt, (VInt _ | VBool _) => true
  | TFloat, VFloat _ => true
  | TFloatInt, (VInt _ | VBool _ | VFloat _) => true
  | TBool, VBool _ => true
  | _, _ => false
  end.

(** integer value of an int or bool *)
Definition as_int (v : pyval) : Z := match v with VInt z => z | VBool true => 1 | _ => 0 end.

(** utils.py:205-213, NumericProperty's setter up to the decision: raise, store the value and run
    the change hook ([Ok true]), or do nothing ([Ok false]).  [cur] is
    [getattr(obj, attr, None)]. *)
Definition numeric_decide (cur : option pyval) (t : vartype) (value : pyval) : res bool :=
  if negb (isinstance value t) then Err TypeError
  else
    do neg <- py_lt value (VInt 0);
    if neg : bool then Err ValueError
    else Ok (negb (py_eq (match cur with Some v => v | None => VNone end) value)).

(** utils.py:205-213, the whole setter on an object of any kind: [get]/[put] access the backing
    attribute, [hook] is the object's [_attribute_changed]. *)
Definition numeric_fset {O} (get : O -> option pyval) (put : pyval -> O -> O) (hook : O -> O)
    (t : vartype) (value : pyval) (o : O) : res unit * O :=
  match numeric_decide (get o) t value with
  | Err e => (Err e, o)
  | Ok true => (Ok tt, hook (put value o))
  | Ok false => (Ok tt, o)
  end.
