-Q theories Verif
theories/Base.v
theories/Types.v
theories/Dispatch.v
theories/Variant.v
theories/Sem.v
theories/Heap.v
theories/Trace.v
theories/Wp.v
theories/DispatchFacts.v
theories/Values.v
theories/ValuesFacts.v
theories/TypesFacts.v
theories/Rep.v
theories/SpecInt.v
theories/SpecVar.v
theories/SpecAssign.v
theories/SpecSwap.v
theories/SpecSem.v
theories/SpecConv.v
theories/Client.v
theories/Observe.v
theories/Spec.v
theories/SpecQuery.v
theories/Link.v
theories/ObserveFacts.v
theories/World.v
theories/ClientProof.v
theories/Owned.v
theories/OwnedFacts.v
theories/History.v
theories/TraceFacts.v
theories/Levels.v
theories/HistoryProof.v
theories/Check.v
theories/Samples.v
theories/Reach.v
theories/ReachFacts.v
theories/Raises.v
theories/ReadOnly.v
theories/CoreFacts.v
theories/LifeFacts.v
theories/OpFacts.v
theories/Runs.v
theories/Scenes.v
theories/PropsLife.v
theories/PropsOps.v
theories/Lax.v
theories/Alias.v
theories/AliasFacts.v
theories/TypeChoice.v
theories/PropsDefects.v
theories/GetTypes.v
theories/GetSpec.v
theories/GetFacts.v
theories/Queries.v
theories/Ask.v
theories/QueryFacts.v
theories/PropsQuery.v
theories/Layout.v
theories/LayoutSpec.v
theories/LayoutFacts.v
theories/Substitute.v
theories/SubstSpec.v
theories/SubstFacts.v
theories/PropsTypes.v
theories/WrapSpec.v
theories/WrapFacts.v
theories/PropsWrap.v
theories/VisitSpec.v
theories/VisitFacts.v
theories/PropsVisit.v
theories/Compile.v
theories/CompileSpec.v
theories/CompileFacts.v
theories/PropsCompile.v
theories/Nested.v
theories/NestedSpec.v
theories/NestedFacts.v
theories/PropsNested.v
theories/References.v
theories/ReferencesSpec.v
theories/ReferencesFacts.v
theories/PropsReferences.v
theories/SwapSpec.v
theories/SwapFacts.v
theories/PropsSwap.v
theories/PlaceSpec.v
theories/PlaceProof.v
theories/PlaceFacts.v
theories/PropsPlace.v
theories/ConstSpec.v
theories/Keeps.v
theories/ConstFacts.v
theories/PropsConst.v
theories/CostSpec.v
theories/Cost.v
theories/CostFacts.v
theories/PropsCost.v
theories/Comparison.v
theories/ComparisonSpec.v
theories/ComparisonFacts.v
theories/PropsComparison.v
theories/OriginSpec.v
theories/Origins.v
theories/OriginFacts.v
theories/PropsOrigin.v
theories/Requires.v
theories/RequiresSpec.v
theories/RequiresFacts.v
theories/Needs.v
theories/NeedsFacts.v
theories/PropsRequires.v
theories/BuildSpec.v
theories/BuildFacts.v
theories/BuildProof.v
theories/PropsBuild.v
theories/AnswerSpec.v
theories/Asks.v
theories/AnswerFacts.v
theories/PropsAnswer.v
theories/Wrappers.v
theories/WrappersSpec.v
theories/WrappersProof.v
theories/WrappersFacts.v
theories/WrappersRuns.v
theories/PropsWrappers.v
theories/Places.v
theories/PlacesSpec.v
theories/PlacesProof.v
theories/PlacesFacts.v
theories/PlacesRuns.v
theories/PropsPlaces.v
theories/Alike.v
theories/AlikeSpec.v
theories/AlikeFacts.v
theories/PropsAlike.v
theories/DepthProof.v
theories/DepthSpec.v
theories/DepthFacts.v
theories/PropsDepth.v
theories/Programs.v
theories/ProgramsSpec.v
theories/ProgramsFacts.v
theories/PropsPrograms.v
theories/Sizes.v
theories/SizesSpec.v
theories/SizesFacts.v
theories/PropsSizes.v
theories/PlacesAlikeSpec.v
theories/AlikePlaces.v
theories/AlikePlacesFacts.v
theories/PropsPlacesAlike.v
theories/MeaningSpec.v
theories/MeaningFacts.v
theories/PropsMeaning.v
theories/Calls.v
theories/CallsSpec.v
theories/CallsFacts.v
theories/PropsCalls.v
theories/CallsMeaningSpec.v
theories/CallsMeaningFacts.v
theories/PropsCallsMeaning.v
theories/BlameSpec.v
theories/Blame.v
theories/BlameFacts.v
theories/PropsBlame.v
theories/TidySpec.v
theories/TidyFacts.v
theories/PropsTidy.v
theories/GuardsSpec.v
theories/GuardsFacts.v
theories/PropsGuards.v
theories/EndingSpec.v
theories/EndingFacts.v
theories/AppendFacts.v
theories/PropsEnding.v
theories/Delayed.v
theories/DelayedSpec.v
theories/DelayedFacts.v
theories/PropsDelayed.v
theories/RefQueries.v
theories/RefQueriesSpec.v
theories/RefQueriesFacts.v
theories/PropsRefQueries.v
