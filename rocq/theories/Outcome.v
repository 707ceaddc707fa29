(** Results of running a piece of finquant code.

    Rust code in /repo can return a value, return an [Err], or unwind with a
    panic.  The model keeps the three apart: [Ok v] is a normal return,
    [Err e] is a returned error value (src/error.rs:1-9), [Panic p] is an
    unwinding panic.  Simplification: panic payload strings and error
    messages are dropped, only the reason is kept. *)

Inductive error : Set :=
| EPeriodOutOfBounds       (* src/error.rs:4  Error::PeriodOutOfBounds *)
| ETradeExpired            (* src/error.rs:6  Error::TradeExpired *)
| EInvalidData.            (* src/error.rs:8  Error::InvalidData *)

Inductive panic : Set :=
| PDateRange      (* chrono: NaiveDate arithmetic left [NaiveDate::MIN, MAX] *)
| PIndex          (* slice/array index out of bounds *)
| PUnwrap         (* Option::unwrap / Result::unwrap / expect on None / Err *)
| PArith          (* integer overflow with overflow checks on, or division by zero *)
| PAssert         (* assert! / assert_eq! / panic! / todo! *)
| PBorrow         (* RefCell already borrowed *)
| PStack.         (* unbounded recursion: the real program aborts *)

Inductive outcome (A : Type) : Type :=
| Ok (a : A)
| Err (e : error)
| Panic (p : panic).
Arguments Ok {A} _.
Arguments Err {A} _.
Arguments Panic {A} _.

Definition obind {A B} (x : outcome A) (f : A -> outcome B) : outcome B :=
  match x with Ok a => f a | Err e => Err e | Panic p => Panic p end.

Definition omap {A B} (f : A -> B) (x : outcome A) : outcome B :=
  obind x (fun a => Ok (f a)).

Notation "'do' x <- e ; k" := (obind e (fun x => k))
  (at level 200, x pattern, e at level 100, k at level 200, right associativity).

(** Rust's [.unwrap()] on an [Option]. *)
Definition ounwrap {A} (x : option A) : outcome A :=
  match x with Some a => Ok a | None => Panic PUnwrap end.

(** Short-circuiting [||] and [&&] when an operand may panic. *)
Definition oor (x y : outcome bool) : outcome bool :=
  do b <- x; if b then Ok true else y.
Definition oand (x y : outcome bool) : outcome bool :=
  do b <- x; if b then y else Ok false.
Definition onot (x : outcome bool) : outcome bool := omap negb x.

Lemma obind_Ok {A B} (x : outcome A) (f : A -> outcome B) b :
  obind x f = Ok b <-> exists a, x = Ok a /\ f a = Ok b.
Proof.
  destruct x; simpl; split; intros H; try discriminate.
  - eauto.
  - destruct H as (a' & E & H). injection E as ->. exact H.
  - destruct H as (? & ? & ?); discriminate.
  - destruct H as (? & ? & ?); discriminate.
Qed.

Definition is_ok {A} (x : outcome A) : bool :=
  match x with Ok _ => true | _ => false end.
