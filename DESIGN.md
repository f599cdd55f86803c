# A Rocq model of lojack5/structured

The package `structured` turns type hints into serializers and (un)packs instances of classes with them.
Everything is in Rocq (Coq 8.16.1) under `rocq/theories`, logical name `Verif`. There is no Lean part.

## Trusted base

* **Coq's kernel** (the sources are checked by `coqc`, the compiled files by `coqchk`). No axiom of our own, no
  `Admitted`, no section-less `Variable`/`Hypothesis`, no functor, no module type, no plugin, no switched-off check.
* **`Print Assumptions`** stands beside every property theorem (in the `Props*.v` files) and answers
  `Closed under the global context` for each of them: no theorem uses an axiom.
* `coqchk` lists, for the whole set of loaded libraries, the seven axioms of the standard library file
  `Coq.ssr.ssrunder` (`Under_rel.*`), which is loaded by `lia`'s libraries (`ZifyBool` needs `ssreflect`). No theorem
  here depends on them.
* **The model is a faithful reading of the code.** There is no extraction and no execution of the Python code: the
  correspondence rests on the comments that cite file and lines beside each definition. What is read, and what is
  left out, is listed below. The seeded faults of `seeded/LOG.jsonl` show which theorems notice which changes of the
  model.
* **CPython and its `struct` module**, as described by `StructMod.v` and `Floats.v` (see *Platform layer*).

## Method

1. `Exec.v` is an executable, total transcription of the six methods (`pack`, `pack_into`, `pack_write`, `unpack`,
   `unpack_from`, `unpack_read`) of every serializer class and of `Structured`, in a state monad. The state holds
   everything the code mutates: the attributes `size` and `_partial_object` of every serializer object, the target
   buffer, the contents and position of the file-like object.
2. `Pure.v` is a stateless semantics of the same syntax (`enc`, `dec`). `RefPack.v` and `RefUnpack.v` prove that the
   methods of `Exec.v` compute it **from every state** (whatever was packed or unpacked before), for the class tables
   called *healthy* (`classes_ok`, a condition each class can be checked for separately). Properties such as C01, C03,
   C05, C08 are then statements about `Exec.v`'s methods, proved through `Pure.v`; `enc` and `dec` do not occur in the
   statements of the properties.
3. Single-serializer properties (C16-C31) are stated on the methods of `Exec.v` through `Wire.v` (*writes, refuses,
   reads, rejects*), for every class table, including unhealthy ones.
4. `Hints.v` transcribes the way from type hints to classes: hint factories, `annotated.transform`, type variables,
   `__init_subclass__`.
5. Where the code violates the property as one would like to state it, the faithful model gives a theorem `..._refuted`
   with a concrete witness, and the positive theorem has a hypothesis that excludes exactly that feature. The statement
   in `properties.jsonl` says both.
6. Every positive theorem has an `Example` beside it showing concrete, non-trivial data (usually the class table of
   `Sample.v`) that meets its hypotheses.

Python recursion (through `Self` or nested `Structured` classes) is modelled by a budget `n`; running out of it is the
exception value `RecursionError`. Theorems quantify over every `n`; C09 says that the budget does not matter and that
there is one for every instance.

## Files

| file | contents |
|---|---|
| `Base.v` | exceptions as values (`res`), bytes, Python slicing, integers as bytes |
| `Floats.v` | binary64 patterns to and from binary32/binary16 as CPython's `struct` does it |
| `Value.v` | Python values, `ByteOrder` |
| `StructMod.v` | the `struct` module: formats as lists of counted specifiers |
| `Format.v` | `StructSerializer`, `StructActionSerializer`: fold, `+`, `*`, `@`, byte order |
| `FormatStr.v` | format strings, the regular expressions of `structs.py`, the strings' parser |
| `Ser.v` | every serializer class as a constructor of `ser`; `num_values`, `get_final`, `with_byte_order`, `+` |
| `Exec.v` | the methods, stateful (above) |
| `Pure.v` | the stateless semantics, *healthy* classes |
| `Hints.v` | hints, factories, `transform`, generic specialization, `__init_subclass__` |
| `Surface.v`, `Programs.v` | class statements as a user writes them; the fragment of C42 |
| `Accept.v`, `AcceptProg.v` | the check of C40 on the text of class statements, and its agreement with `Hints.v` |
| `WireSpec.v` | the wire format of C44 on the text of class statements (`WireFacts.v`, `Wires.v`: lemmas) |
| `PackSpec.v` | which instances can be packed, C49 (`Packable.v`: only those, `Packing.v`: all of them) |
| `ReadSpec.v` | the meaning of arbitrary bytes for a class statement, C46 (`ReadFacts.v`, `Reads.v`: lemmas); `Refills.v`: the same for an existing object (C48) |
| `Utils.v` | the two strict zips, `attrgetter`, unpacking on Python 3.9 (C51) |
| `Raises.v` | the exceptions a hint adds to the usual three when bytes are read, C52, and the proof on the stateless decoder |
| `Reached.v` | the objects that conditions and deciders get while bytes are read, read off the class statements, C52 |
| `TypeSpec.v`, `Typed.v` | the values a field can have after reading, by its annotation (specification), and that reading keeps to them, C53 |
| `WhySpec.v`, `Whys.v`, `Reasons.v` | the reasons for an exception of packing, by hint expression and value (specification), that packing raises nothing else, and that nothing with a reason is packed, C54 |
| `SizeSpec.v`, `Sizes.v` | classes of a fixed size and that size, read off the class statement (specification); it is the length of every layout and the number of bytes every reading uses, C55 |
| `FaultSpec.v`, `Faults.v`, `Raising.v`, `Determined.v` | the exception that reading arbitrary bytes raises, read off the class statement (specification); nothing else is raised; with enough stack it is raised; when it is determined, C56 |
| `LocalSpec.v`, `Locals.v` | which class statements look only at the bytes they use, notice the end of the bytes, and read the same with the three methods (specification); that the readings of C46 do, C57 |
| `BackSpec.v`, `Backs.v`, `BackFits.v` | which class statements lose nothing when reading, and which of them read only what can be written (specification); that the layout of what was read is the bytes read, and that it can be written, C58 |
| `SteadySpec.v`, `Steadies.v` | which class statements read what they have written (specification, with what is asked of encodings); that what was read is read again from its layout, C59 |
| `Generics.v` | programs with generic classes and the text a specialization amounts to (C50); `Skeleton.v`: classes that are the same up to the identity of serializer objects do the same |
| `Init.v` | the generated `__init__`, argument binding, `__post_init__`, who calls the constructor (C47) |
| `Frame.v` | which parts of the state a method touches (C45) |
| `Equality.v` | Python's `==` on values, `Structured.__eq__` |
| `User.v`, `Wire.v`, `Field.v` | vocabulary for property statements: the public methods of `Structured`; of a serializer; of one field |
| `Canon.v` | canonical attribute values: what a reader can be expected to get back |
| `Portable.v`, `Exact.v`, `Sure.v` | classes whose layout does not depend on the host; whose bytes are reproduced; that pack again |
| `Sample.v` | sample class table and instances for the examples |
| `SerShape.v`, `*Facts.v`, `RefPack.v`, `RefUnpack.v`, `Leaf.v`, `RoundTrip*.v`, `Fuel*.v`, `NoRec.v`, `Adding.v` | lemmas |
| `Props*.v` | the property theorems, refutations and examples |

## What is modelled, by file of /repo/structured

| file | modelled | not modelled |
|---|---|---|
| `base_types.py` | `ByteOrder`, `ByteOrderMode` | docstrings, `requires_indexing` beyond "a hint that is rejected" |
| `serializers/api.py` | `Serializer.with_byte_order`, `__add__`, `get_final`, `NullSerializer`, `CompoundSerializer` (all) | `__getitem__`-free typing helpers |
| `serializers/structs.py` | all: both serializers, `+ * @`, `with_byte_order`, fold functions on strings and lists, `unpack_read` | `functools.cache` identity (equal serializers are equal values) |
| `serializers/strings.py` | all: static, dynamic, NET, terminated, consuming, unicode | codecs are two functions (a parameter); `EncoderDecoder` subclasses likewise; packing something other than bytes as a terminated or a read-to-end string raises TypeError at once (in the code a list is first extended in place, then struct.error follows) |
| `serializers/arrays.py` | all: header, dynamic and static arrays of structs, arrays of serializers, size checks | |
| `serializers/tuples.py`, `self.py`, `structured.py`, `conditional.py`, `unions.py` | all methods and transforms; deciders and conditions are arbitrary functions of the object / the key that may raise | user callables cannot have side effects |
| `hint_types/*.py` | `char`, `unicode`, `Header`, `array`, `pad`, `SerializeAs`, `Condition`, `tuple`, the basic types | names of the generated classes, `__repr__` |
| `structured.py` | `_Proxy`, `__init_subclass__`, `MetaDict` checks, `filter_typehints`, attribute filling, all public methods, `with_byte_order` on instances, `gen_init`, `__post_init__`, `__eq__`, specialization of generic bases | the annotation text in the generated `__init__` (never evaluated); a `__post_init__` or own `__init__` of *nested* classes (`Init.v` has them for the class itself, Exec.v assumes that they do nothing special), `__str__`/`__repr__`, `Structured.__class_getitem__` error texts |
| `utils.py` | `StructuredAlias.resolve`, `zips` (both versions), `attrgetter` (`Utils.v`; Exec.v uses their meaning on Python >= 3.10, C51 relates them) | `deprecated`, `warn_deprecated` |
| `type_checking.py` | `annotated.transform`, `get_union_args`, `get_tuple_args`, `isclassvar` | `typing` itself: hints are data, `get_type_hints` is "evaluate the string annotations" |

### Simplifications

* **Serializer identity.** Serializer objects carry a number (`id`) under which the mutable attributes are kept.
  `with_byte_order` keeps the number: two objects of the code share one cell of the model. As the refinement theorems
  hold from every state, sharing more cells than the code does is harmless for the results they describe.
* **Values have no identity**: `is` is not modelled, lists and attribute dicts are copied. `obj.unpack` (C32) is modelled
  as the update of one object.
* **Formats**: the codes `n N P` are not modelled; `\d` in the regular expressions means the ASCII digits; blanks in
  formats do not occur (none of the basic types has one; C41 assumes it).
* **An attribute called `cls`** in a class with `Self` makes unpacking raise in the model. In the code its value takes
  the place of the class; that works if it is itself a `Structured` object.
* **Recursion**: the budget counts nested `Structured` classes instead of Python frames.
* **Buffers** are bytearrays, streams behave as `BytesIO` (a short read happens at the end only, `write` writes all).
* **Exceptions** are their class; messages and chained exceptions are not modelled. `UnicodeError`s are whatever the codec
  function returns.
* **Generics**: Python >= 3.11 behaviour of `typing` (e.g. `__orig_bases__`, `Unpack`); class level results (C35) are for
  chains of single specializations. In the programs of C50 a class with a base `C[args]` has no type variables of its own
  and type variables occur where `Generics.v` lists them.
* **User code** (actions of `SerializeAs`, deciders, conditions, codecs) is an arbitrary pure function into values or
  exceptions.

### Platform layer

`StructMod.v` covers the codes `x c b B ? h H i I l L q Q e f d s p`, the five byte orders, native sizes and alignment
of 64 bit Linux, the host's byte order `hb` as a parameter, range checks, `__index__`, and `struct.error`. `Floats.v`
rounds to nearest even, raises `OverflowError` where CPython does, and converts NaNs as CPython <= 3.13 does (the payload
of a narrowed NaN; see `C36_nan_refuted`).

## Reading the hypotheses

* *healthy* (`User.v`): every class of the table that may be reached passes `hc`: no counted string or array header in a
  shape whose packing always fails, compound members that agree with their number of values, and so on. `Pure.v`
  explains each condition next to the line of code it comes from.
* *readable* / *reads_back* (`RoundTripMain.v`, `PropsRoundTrip.v`): the fields decode with the given method what they
  encoded: e.g. read-to-end strings only last, terminated strings not with `unpack_from`.
* *conforms* (`User.v`): the instance has a value of the right shape for each attribute (`Canon.v`: of canonical form).
* C42 says which programs of class statements produce classes that satisfy them (C14: the part about reading to the
  end).

## Seeded faults

`seeded/LOG.jsonl` has one line per fault: the definition edited in a scratch copy, the edit, the claim it should break,
and the theorems that failed. The tool compiles the whole development with the faulty definition, replaces each proof that
fails by `Admitted` (in the scratch copy) and lists the theorems whose own proof failed or which depend on such a proof;
the latter is an over-approximation, as a failed lemma may be provable in another way. Theorems that were found too weak
were tightened; the log says which.

## Properties

`properties.jsonl` states them, `MANIFEST.json` names the theorems. Beyond the initial list: C36 (unpack then pack), C37
(equality), C38 (unambiguous encodings), C39 (attributes), C40 (accepted class statements), C41
(format strings), C42 (programs of class statements), C43 (rounding of floats), C44 (the wire format of
class statements), C45 (what a call can change, also when it fails), C46 (what arbitrary bytes mean for a class
statement), C47 (the constructor), C48 (what arbitrary bytes do to an
existing object), C49 (which instances can be packed), C50 (programs with generic classes), C51 (strict zip
and Python 3.9), C52 (which exceptions reading can raise), C53 (what is read has the type of its annotation), C54 (why packing fails),
C55 (classes of a fixed size), C56 (why reading fails), C57 (reading looks only at
the bytes it uses), C58 (what was read is written back as it was), C59 (what was
read and packed is read again as it was), C60 (files of objects that were read). `PropsPrograms.v` has C03, C06, C07 and C38,
and `PropsStatement.v` and `PropsExchange.v` have C12, for programs of class statements. `PropsExcluded.v` shows that what C42
leaves out is indeed not read back.
