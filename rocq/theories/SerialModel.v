(** Model of dumping an expression as a C++ program: the serialize functions of value.hpp:90-97, constant.hpp:66-77,
    variable.hpp:207-221, place_holder.hpp:136-144, tensor.tcc:1307-1323, utils/enable_serializer.hpp:10-66 and operation.hpp:312-371.

    A program is a list of statements; names are texts, exactly as formatted.  Serialising also writes the tensors' files.

    Simplifications: all elements are of one type; a statement is kept as its parts (the declared name, the function, its arguments, the
    operands) instead of a line of text; arguments of operators are texts, as fmt has written them; the files can be written.  Elements that
    stand in the program itself (the number of a value, the regularisers) are written by [lit], which is operator << of a stream with the
    default precision (utils/fmt.hpp: has_ostream, cast_to_string). *)
From Coq Require Import String.
From Coq Require Import List Arith NArith Bool PeanoNat.
From Verif Require Import ListBase TensorModel TextModel PrintModel.
Import ListNotations.
Local Open Scope nat_scope.

Notation text := (list N) (only parsing).

(** how an operator's serializer writes the call:
    [Plain]   name( operands )             enable_serializer.hpp:10-43
    [Curried] name( arguments )( operands )   operation.hpp:319-371
    [Infix]   operand sign argument        operation.hpp:712-719, 768-775 *)
Inductive style := Plain | Curried | Infix (sign : N).

(** an operator: name(), its serializer, the arguments the serializer holds *)
Record operator := Operator { oname : text; ostyle : style; oargs : list text }.

Section Serial.
Context {E : Type}.
Local Notation content := (list nat * list E)%type.

(** an expression with the identifiers of its objects; constants and variables hold a tensor, which has an identifier of its own *)
Inductive ex :=
| Hold (id : nat)
| Val (id : nat) (x : E)
| Con (id tid : nat) (x : content)
| Var (id tid : nat) (x : content) (l1 l2 : E) (trainable : bool)
| Un (id : nat) (o : operator) (e : ex)
| Bin (id : nat) (o : operator) (l r : ex).

Inductive stmt :=
| DeclTensor (n : text)                                       (* ceras::tensor<T> n; *)
| LoadTensor (n file : text)                                  (* n.load_tensor( "file" ); *)
| DeclHold (n : text)                                         (* ceras::place_holder<ceras::tensor<T>> n; *)
| DeclVal (n x : text)                                        (* ceras::value<T> n( x ); *)
| DeclCon (n t : text)                                        (* ceras::constant<ceras::tensor<T>> n ( t ); *)
| DeclVar (n t l1 l2 : text) (trainable : bool)               (* ceras::variable<ceras::tensor<T>> n( t, l1, l2, trainable ); *)
| DeclAuto (n : text) (o : operator) (operands : list text).  (* auto n = the call; *)

Definition under : N := 95%N.
(** fmt::format( "{}_{}", s, id ) *)
Definition numbered (s : text) (id : nat) : text := s ++ under :: put_nat id.

(** tensor.tcc:1310-1311 *)
Definition tensor_name (tid : nat) : text := numbered (str "tensor") tid.
Definition tensor_file (tid : nat) : text := tensor_name tid ++ str ".txt".
(** place_holder.hpp:140, value.hpp:93, constant.hpp:69, variable.hpp:213 *)
Definition hold_name (id : nat) : text := numbered (str "place_holder") id.
Definition value_name (id : nat) : text := numbered (str "value") id.
Definition constant_name (id : nat) : text := numbered (str "constant") id.
Definition variable_name (id : nat) : text := numbered (str "variable") id.
(** enable_serializer.hpp:17, 33; operation.hpp:341 and, for two operands with arguments, 357 *)
Definition unary_name (o : operator) (id : nat) : text := numbered (str "unary_expression_" ++ oname o) id.
Definition binary_name (o : operator) (id : nat) : text :=
  match ostyle o with Plain => numbered (str "binary_expression_" ++ oname o) id | _ => numbered (str "unary_expression_" ++ oname o) id end.

(** std::get<0>( serialize( e ) ) *)
Definition name_of (e : ex) : text :=
  match e with
  | Hold id => hold_name id
  | Val id _ => value_name id
  | Con id _ _ => constant_name id
  | Var id _ _ _ _ _ => variable_name id
  | Un id o _ => unary_name o id
  | Bin id o _ _ => binary_name o id
  end.

(** tensor.tcc:1318-1319 *)
Definition tensor_code (tid : nat) : list stmt := [DeclTensor (tensor_name tid); LoadTensor (tensor_name tid) (tensor_file tid)].

(** std::get<1>( serialize( e ) ) *)
Context (lit : E -> text).
Fixpoint code (e : ex) : list stmt :=
  match e with
  | Hold id => [DeclHold (hold_name id)]
  | Val id x => [DeclVal (value_name id) (lit x)]
  | Con id tid _ => tensor_code tid ++ [DeclCon (constant_name id) (tensor_name tid)]
  | Var id tid _ l1 l2 tr => tensor_code tid ++ [DeclVar (variable_name id) (tensor_name tid) (lit l1) (lit l2) tr]
  | Un id o e => code e ++ [DeclAuto (unary_name o id) o [name_of e]]
  | Bin id o l r => code l ++ code r ++ [DeclAuto (binary_name o id) o [name_of l; name_of r]]
  end.

(** tensor.tcc:1312: the files written, in order *)
Context (put : E -> text).
Fixpoint save_files (e : ex) (fs : files) : files :=
  match e with
  | Hold _ | Val _ _ => fs
  | Con _ tid x => put_file fs (tensor_file tid) (Some (save_tensor put x))
  | Var _ tid x _ _ _ => put_file fs (tensor_file tid) (Some (save_tensor put x))
  | Un _ _ e => save_files e fs
  | Bin _ _ l r => save_files r (save_files l fs)
  end.
End Serial.
Arguments ex : clear implicits.

(** names of operators that name no function of the library: operation.hpp:2550 (minimum), 3887 (cbrt), activation.hpp:513
    (exponential), loss.hpp:132 (cross_entropy_loss) *)
Definition misnamed : list (list N) := [str "minmum"; str "cbert"; str "exponentional"; str "CrossEntropyLoss"].
