-Q theories Verif
theories/Base.v
theories/Topological.v
theories/SpecTopological.v
theories/TopologicalProofs.v
theories/PropTopological.v
theories/Digits.v
theories/DigitsProofs.v
theories/TimeDelta.v
theories/SpecTimeDelta.v
theories/TimeDeltaProofs.v
theories/PropTimeDelta.v
theories/Base64.v
theories/SpecBase64.v
theories/Base64Proofs.v
theories/PropBase64.v
theories/IsoTime.v
theories/SpecIsoTime.v
theories/IsoTimeProofs.v
theories/PropIsoTime.v
theories/PyStr.v
theories/PyStrProofs.v
theories/Addresses.v
theories/SpecAddresses.v
theories/AddressesProofs.v
theories/PropAddresses.v
theories/Json.v
theories/PyTypes.v
theories/Mapping.v
theories/Deser.v
theories/Ser.v
theories/Lists.v
theories/SpecTyping.v
theories/TypingFacts.v
theories/DeserSound.v
theories/SpecRecursion.v
theories/DeserFuel.v
theories/Samples.v
theories/PropSound.v
theories/PropRecursion.v
theories/SpecNumbers.v
theories/NumbersProofs.v
theories/DeserBuild.v
theories/SpecErrors.v
theories/DeserErrors.v
theories/PropErrors.v
theories/DeserUnfold.v
theories/SpecDeser.v
theories/DeserFacts.v
theories/PropDeser.v
theories/TypeAlgebra.v
theories/SpecTypes.v
theories/TypeAlgebraProofs.v
theories/SpecFields.v
theories/FieldProofs.v
theories/PropFields.v
theories/SpecHints.v
theories/HintProofs.v
theories/PropHints.v
theories/Scopes.v
theories/SpecScopes.v
theories/ScopesProofs.v
theories/PropScopes.v
theories/SpecTagged.v
theories/TaggedProofs.v
theories/PropTagged.v
theories/SpecSer.v
theories/SerFacts.v
theories/SpecRoundTrip.v
theories/RoundTrip.v
theories/PropSer.v
theories/PropRoundTrip.v
theories/SpecSerTotal.v
theories/SerTotal.v
theories/PropSerTotal.v
theories/DeserCache.v
theories/SpecCache.v
theories/DeserCacheProofs.v
theories/PropCache.v
theories/ClassDef.v
theories/SpecClassDef.v
theories/ClassDefProofs.v
theories/SpecLabels.v
theories/PropClassDef.v
theories/Catalog.v
theories/SpecCatalog.v
theories/CatalogProofs.v
theories/PropCatalog.v
theories/SerCache.v
theories/SerCacheProofs.v
theories/PropSerCache.v
theories/Inspect.v
theories/SpecInspect.v
theories/InspectProofs.v
theories/SpecOutcome.v
theories/OutcomeProofs.v
theories/SpecChecks.v
theories/ChecksProofs.v
theories/PropInspect.v
theories/Collector.v
theories/SpecCollector.v
theories/CollectorProofs.v
theories/CollectorExact.v
theories/PropCollector.v
theories/Docstring.v
theories/SpecDocstring.v
theories/DocstringProofs.v
theories/DocstringRoundTrip.v
theories/PropDocstring.v
theories/Schema.v
theories/SpecSchema.v
theories/SchemaSem.v
theories/SpecGenerate.v
theories/SchemaProofs.v
theories/SchemaClass.v
theories/PropSchema.v
theories/SpecValid.v
theories/SchemaForm.v
theories/SchemaValid.v
theories/ValidTame.v
theories/PropValid.v
theories/SpecReadable.v
theories/SchemaRead.v
theories/PropReadable.v
theories/Flatten.v
theories/SpecFlatten.v
theories/FlattenProofs.v
theories/PropFlatten.v
theories/Names.v
theories/SpecNames.v
theories/NamesProofs.v
theories/PropNames.v
theories/SpecNotation.v
theories/NotationProofs.v
theories/PropNotation.v
theories/SpecPerm.v
theories/PermProofs.v
theories/PropPerm.v
theories/SpecDraw.v
theories/DrawProofs.v
theories/PropDraw.v
theories/TypeDef.v
theories/SpecTypeDef.v
theories/TypeDefNodes.v
theories/TypeDefEnv.v
theories/TypeDefGrow.v
theories/TypeDefParts.v
theories/TypeDefProofs.v
theories/SpecTypeShape.v
theories/TypeDefShape.v
theories/PropTypeDef.v
theories/PropTypeShape.v
theories/Context.v
theories/SpecContext.v
theories/ContextProofs.v
theories/PropContext.v
theories/SpecMirror.v
theories/MirrorWords.v
theories/MirrorProofs.v
theories/PropMirror.v
theories/SpecNotes.v
theories/NotesProofs.v
theories/PropNotes.v
theories/Text.v
theories/SpecText.v
theories/TextProofs.v
theories/TextRead.v
theories/TextWrite.v
theories/TextTyped.v
theories/PropText.v
theories/SpecMeta.v
theories/MetaProofs.v
theories/PropMeta.v
theories/PropLiteral.v
theories/DocType.v
theories/SpecDocType.v
theories/DocTypeProofs.v
theories/PropDocType.v
theories/SpecExact.v
theories/ExactProofs.v
theories/PropExact.v
theories/JsonTypes.v
theories/SpecJsonTypes.v
theories/JsonTypeProofs.v
theories/PropJsonTypes.v
theories/SpecRegister.v
theories/RegisterProofs.v
theories/PropRegister.v
theories/SpecRewrite.v
theories/RewriteProofs.v
theories/PropRewrite.v
theories/PropExchange.v
theories/SpecEvolve.v
theories/EvolveProofs.v
theories/PropEvolve.v
theories/PropEvolveSchema.v
theories/TypeParts.v
theories/PropTypeParts.v
theories/Inherit.v
theories/SpecInherit.v
theories/InheritProofs.v
theories/PropInherit.v
theories/SpecStands.v
theories/StandsProofs.v
theories/PropStands.v
theories/Construct.v
theories/PropConstruct.v
theories/SpecMake.v
theories/MakeRead.v
theories/MakeProofs.v
theories/MakeAll.v
theories/MakeNames.v
theories/PropMake.v
theories/SpecSend.v
theories/SendForms.v
theories/SendProofs.v
theories/SchemaWf.v
theories/PropSend.v
theories/Modules.v
theories/SpecModules.v
theories/PropModules.v
theories/SpecEqual.v
theories/EqualProofs.v
theories/PropEqual.v
